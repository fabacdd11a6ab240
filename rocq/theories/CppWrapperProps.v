(** C49, C67: the C++ the generator writes around a call type-checks, and conversions for calls from C++
    into Rust undo those for calls from Rust into C++. *)
From Verif Require Import Base QNamesModel KnownTypesModel ApiModel TypesModel TypesSpec CppTypesModel CppTypesProofs
  CppTypesProps ConversionModel TypeConverterModel FnAnalysisModel CppWrapperModel.

(** * Spec: typing C++ expressions *)

(** Types of function parameters and results. *)
Inductive pty := PObj (c : cty) | PLRef (k : bool) (c : cty) | PRRef (c : cty).
Definition as_param (c : cty) : pty := match c with CRef k d => PLRef k d | _ => PObj c end.
(** Types of expressions: the value category, and whether the object is const. *)
Inductive vty := Lv (k : bool) (c : cty) | Xv (k : bool) (c : cty) | Pr (c : cty).
Definition obj_type (v : vty) : cty := match v with Lv _ c | Xv _ c | Pr c => c end.
Definition is_const (v : vty) : bool := match v with Lv k _ | Xv k _ => k | Pr _ => false end.
Definition result_of (p : pty) : vty := match p with PObj c => Pr c | PLRef k c => Lv k c | PRRef c => Xv false c end.
Definition unique_of (c : cty) : cty := CBase "std::unique_ptr" [c].
Definition box_of (c : cty) : cty := CBase "rust::Box" [c].

Section Cpp.
  (** Which classes can be copied and moved; which functions there are: name, class and constness of the
      object called upon, parameters, result. *)
  Variables copyable movable : cty -> Prop.
  Variable callee : string -> option (bool * cty) -> list pty -> option pty -> Prop.

  Definition can_copy (c : cty) : Prop := (exists k d, c = CPtr k d) \/ copyable c.
  Definition can_move (c : cty) : Prop := can_copy c \/ movable c.

  (** A parameter (or result, or variable) of the type can be initialised with the expression. *)
  Inductive inits : pty -> vty -> Prop :=
  | in_prvalue : forall c, inits (PObj c) (Pr c)
  | in_move : forall c, can_move c -> inits (PObj c) (Xv false c)
  | in_copy_x : forall k c, can_copy c -> inits (PObj c) (Xv k c)
  | in_copy : forall k c, can_copy c -> inits (PObj c) (Lv k c)
  | in_lref : forall k k' c, (k' = true -> k = true) -> inits (PLRef k c) (Lv k' c)
  | in_cref_x : forall k c, inits (PLRef true c) (Xv k c)
  | in_cref_p : forall c, inits (PLRef true c) (Pr c)
  | in_rref_x : forall c, inits (PRRef c) (Xv false c)
  | in_rref_p : forall c, inits (PRRef c) (Pr c).

  (** What [*e] gives. *)
  Inductive deref : cty -> bool -> cty -> Prop :=
  | de_ptr : forall k c, deref (CPtr k c) k c
  | de_unique : forall c, deref (unique_of c) false c
  | de_box : forall c, deref (box_of c) false c.

  (** Expressions with a value. [env] gives the declared types of variables. *)
  Inductive has_type (env : list (string * cty)) : cxp -> vty -> Prop :=
  | ht_var : forall v c, In (v, c) env -> (forall k d, c <> CRef k d) -> has_type env (XVar v) (Lv false c)
  | ht_ref : forall v k c, In (v, CRef k c) env -> has_type env (XVar v) (Lv k c)
  | ht_deref : forall e v k c, has_type env e v -> deref (obj_type v) k c -> has_type env (XDeref e) (Lv k c)
  | ht_pderef : forall e v k c, has_type env e v -> deref (obj_type v) k c -> has_type env (XParenDeref e) (Lv k c)
  | ht_move : forall e k c, has_type env e (Lv k c) -> has_type env (XMove e) (Xv k c)
  | ht_addr : forall e k c, has_type env e (Lv k c) -> has_type env (XAddr e) (Pr (CPtr k c))
  | ht_unique : forall t c e v, reads false t c -> has_type env e v -> inits (PObj c) v ->
      has_type env (XMakeUnique t e) (Pr (unique_of c))
  | ht_call : forall f args ps r, callee f None ps (Some r) ->
      Forall2 (fun e p => exists v, has_type env e v /\ inits p v) args ps -> has_type env (XCall f args) (result_of r)
  | ht_method : forall o v km f args ps r, has_type env o v -> (is_const v = true -> km = true) ->
      callee f (Some (km, obj_type v)) ps (Some r) ->
      Forall2 (fun e p => exists v, has_type env e v /\ inits p v) args ps -> has_type env (XMethod o f args) (result_of r).

  Definition passes (env : list (string * cty)) (args : list cxp) (ps : list pty) : Prop :=
    Forall2 (fun e p => exists v, has_type env e v /\ inits p v) args ps.

  (** Statements fit for a function returning [None] for void. *)
  Inductive runs (env : list (string * cty)) : stmt -> option pty -> Prop :=
  | ru_return : forall e v r, has_type env e v -> inits r v -> runs env (SReturn e) (Some r)
  | ru_call : forall f args ps, callee f None ps None -> passes env args ps -> runs env (SDo (XCall f args)) None
  | ru_method : forall o v km f args ps, has_type env o v -> (is_const v = true -> km = true) ->
      callee f (Some (km, obj_type v)) ps None -> passes env args ps -> runs env (SDo (XMethod o f args)) None
  | ru_new : forall o t v c args ps, has_type env o v -> obj_type v = CPtr false c -> reads false t c ->
      callee "constructor" (Some (false, c)) ps None -> passes env args ps -> runs env (SDo (XPlacementNew o t args)) None
  | ru_into : forall pl t c e v, In (pl, CPtr false c) env -> reads false t c -> has_type env e v -> inits (PObj c) v ->
      runs env (SInto pl t e) None.

  (** A generated function: its parameters, read as C++ reads them, have distinct names; its body fits
      its return type. [members] are further names in scope. *)
  Definition well_typed (members : list (string * cty)) (d : cpp_def) (cs : list cty) (r : option cty) : Prop :=
    Forall2 (fun p c => reads false (fst p) c) (d_params d) cs
    /\ NoDup (map snd (d_params d) ++ map fst members)
    /\ match r with Some c => reads false (d_ret d) c | None => d_ret d = "void" end
    /\ runs (combine (map snd (d_params d)) cs ++ members) (d_body d) (option_map as_param r).

  (** * Spec: what the conversion policies are for *)
  Variable m : name_map.
  Definition spelled (t : ty) (c : cty) : Prop := denotes m t c /\ const_on_names c.

  (** [suits p c P]: a value coming from Rust as a [c] is wanted by C++ as a [P]. *)
  Inductive suits : policy -> cty -> pty -> Prop :=
  | su_none : forall t c rc, spelled t c -> (forall d, as_param c = PObj d -> can_copy d) ->
      suits (Policy t CcNone rc) c (as_param c)
  | su_move : forall t c rc, spelled t c -> (forall k d, c <> CRef k d) -> can_move c -> suits (Policy t CcMove rc) c (PObj c)
  | su_unique : forall t c rc, spelled t c -> can_move c -> suits (Policy t CcFromUniquePtrToValue rc) (unique_of c) (PObj c)
  | su_ptr : forall t c rc, spelled t c -> can_move c -> suits (Policy t CcFromPtrToValue rc) (CPtr false c) (PObj c)
  | su_rvalue : forall t c rc, spelled t c -> suits (Policy t CcFromPtrToValue rc) (CPtr false c) (PRRef c)
  | su_ptr_move : forall t c rc, spelled (TPtr true t) (CPtr false c) ->
      suits (Policy (TPtr true t) CcFromPtrToMove rc) (CPtr false c) (PRRef c)
  | su_ref : forall mu t c rc, spelled (TPtr mu t) (CPtr (negb mu) c) ->
      suits (Policy (TPtr mu t) CcFromPointerToReference rc) (CPtr (negb mu) c) (PLRef (negb mu) c).

  (** [returns p P c]: a C++ result of type [P] goes to Rust as a [c]. *)
  Inductive returns : policy -> pty -> cty -> Prop :=
  | re_none : forall t c rc, spelled t c -> returns (Policy t CcNone rc) (as_param c) c
  | re_unique : forall t c rc, spelled t c -> (forall k d, c <> CRef k d) ->
      returns (Policy t CcFromValueToUniquePtr rc) (PObj c) (unique_of c)
  | re_ref : forall mu t c rc, spelled (TPtr mu t) (CPtr (negb mu) c) ->
      returns (Policy (TPtr mu t) CcFromReferenceToPointer rc) (PLRef (negb mu) c) (CPtr (negb mu) c).

  (** * Proofs *)
  Lemma spelled_type t c : spelled t c -> exists s, type_to_cpp m t = COk s /\ reads false s c.
  Proof. intros [D W]. exact (spell_denoted m t c D W). Qed.

  Lemma plain_unique : plain "std::unique_ptr".
  Proof. repeat split; discriminate. Qed.
  Lemma reads_unique s c : reads false s c -> reads false ("std::unique_ptr<" +++ s +++ ">") (unique_of c).
  Proof.
    intros R. exact (rd_templ "std::unique_ptr" [s] [c] plain_unique ltac:(discriminate) (Forall2_cons _ _ R (Forall2_nil _))).
  Qed.

  (** A parameter of the wrapper, and the expression it becomes; [None] for the place of the result. *)
  Definition fits (d : direction) (p : policy) (c : cty) (P : option pty) : Prop :=
    exists s, param_type m d p = COk s /\ reads false s c /\
      forall name, exists oe, arg_expr m d name p = COk oe /\
        match oe, P with
        | Some e, Some P => forall env, In (name, c) env -> exists v, has_type env e v /\ inits P v
        | None, None => True
        | _, _ => False
        end.

  Lemma var_type env name c : In (name, c) env -> exists v, has_type env (XVar name) v /\ obj_type v = match c with CRef _ d => d | _ => c end.
  Proof.
    intros I. destruct c as [n a|k d|k d].
    - exists (Lv false (CBase n a)). split; [apply ht_var; [exact I | discriminate] | reflexivity].
    - exists (Lv false (CPtr k d)). split; [apply ht_var; [exact I | discriminate] | reflexivity].
    - exists (Lv k d). split; [apply ht_ref; exact I | reflexivity].
  Qed.
  Lemma var_inits env name c : In (name, c) env -> (forall d, as_param c = PObj d -> can_copy d) ->
    exists v, has_type env (XVar name) v /\ inits (as_param c) v.
  Proof.
    intros I C. destruct c as [n a|k d|k d]; cbn [as_param] in *.
    - exists (Lv false (CBase n a)). split; [apply ht_var; [exact I | discriminate] | apply in_copy, C; reflexivity].
    - exists (Lv false (CPtr k d)). split; [apply ht_var; [exact I | discriminate] | apply in_copy, C; reflexivity].
    - exists (Lv k d). split; [apply ht_ref; exact I | apply in_lref; auto].
  Qed.
  Lemma deref_var env name c k d : In (name, c) env -> deref c k d -> (forall k' d', c <> CRef k' d') ->
    has_type env (XDeref (XVar name)) (Lv k d) /\ has_type env (XParenDeref (XVar name)) (Lv k d).
  Proof.
    intros I D N. split; [eapply ht_deref | eapply ht_pderef]; try (apply ht_var; [exact I | exact N]); exact D.
  Qed.
  Lemma deref_not_ref c k d : deref c k d -> forall k' d', c <> CRef k' d'.
  Proof. intros D k' d' ->. inversion D. Qed.

  Lemma suits_fits p c P : suits p c P -> fits RustCallsCpp p c (Some P).
  Proof.
    intros H. destruct H as [t c rc S C|t c rc S NR MV|t c rc S MV|t c rc S MV|t c rc S|t c rc S|mu t c rc S];
      destruct (spelled_type _ _ S) as (s & E & R); unfold fits; cbn [param_type arg_expr].
    - exists s. split; [exact E|]. split; [exact R|]. intros name. exists (Some (XVar name)). split; [reflexivity|].
      intros env I. apply var_inits; assumption.
    - exists s. split; [exact E|]. split; [exact R|]. intros name. exists (Some (XMove (XVar name))). split; [reflexivity|].
      intros env I. exists (Xv false c). split; [apply ht_move, ht_var; assumption | apply in_move, MV].
    - exists ("std::unique_ptr<" +++ s +++ ">"). split; [unfold unconverted_type, unique_ptr_wrapped_type, unwrapped_type; cbn [pol_cpp pol_type]; rewrite E; reflexivity|].
      split; [apply reads_unique, R|]. intros name. exists (Some (XMove (XDeref (XVar name)))). split; [reflexivity|].
      intros env I. exists (Xv false c). split; [|apply in_move, MV].
      apply ht_move. refine (proj1 (deref_var env name (unique_of c) _ _ I (de_unique c) _)). discriminate.
    - exists (s +++ "*"). split; [unfold unconverted_type, unwrapped_type; cbn [pol_cpp pol_type]; rewrite E; reflexivity|].
      split; [apply rd_ptr, R|]. intros name. exists (Some (XMove (XDeref (XVar name)))). split; [reflexivity|].
      intros env I. exists (Xv false c). split; [|apply in_move, MV].
      apply ht_move. refine (proj1 (deref_var env name (CPtr false c) _ _ I (de_ptr false c) _)). discriminate.
    - exists (s +++ "*"). split; [unfold unconverted_type, unwrapped_type; cbn [pol_cpp pol_type]; rewrite E; reflexivity|].
      split; [apply rd_ptr, R|]. intros name. exists (Some (XMove (XDeref (XVar name)))). split; [reflexivity|].
      intros env I. exists (Xv false c). split; [|apply in_rref_x].
      apply ht_move. refine (proj1 (deref_var env name (CPtr false c) _ _ I (de_ptr false c) _)). discriminate.
    - exists s. split; [exact E|]. split; [exact R|]. intros name. exists (Some (XMove (XDeref (XVar name)))). split; [reflexivity|].
      intros env I. exists (Xv false c). split; [|apply in_rref_x].
      apply ht_move. refine (proj1 (deref_var env name (CPtr false c) _ _ I (de_ptr false c) _)). discriminate.
    - exists s. split; [exact E|]. split; [exact R|]. intros name. exists (Some (XParenDeref (XVar name))). split; [reflexivity|].
      intros env I. exists (Lv (negb mu) c). split; [|apply in_lref; auto].
      refine (proj2 (deref_var env name (CPtr (negb mu) c) _ _ I (de_ptr (negb mu) c) _)). discriminate.
  Qed.

  (** The pointer at which Rust wants the result; the wrapper itself puts the result there. *)
  Definition place_for (p : policy) (c : cty) : Prop :=
    exists t d rc, p = Policy (TPtr true t) CcIgnoredPlacementPtrParameter rc /\ c = CPtr false d /\ spelled (TPtr true t) c.
  Lemma place_fits p c : place_for p c -> fits RustCallsCpp p c None.
  Proof.
    intros (t & d & rc & -> & -> & S). destruct (spelled_type _ _ S) as (s & E & R).
    exists s. split; [exact E|]. split; [exact R|]. intros name. exists None. split; [reflexivity | exact I].
  Qed.

  (** The lists of parameters and argument expressions. *)
  Definition names_from (method : bool) (i n : nat) : list string := map (get_arg_name method) (seq i n).
  Lemma fits_all d method ps cPs : Forall2 (fun p cP => fits d p (fst cP) (snd cP)) ps cPs -> forall i,
    exists params exprs,
      cmap (fun ip => cbind (param_type m d (snd ip)) (fun t => COk (t, get_arg_name method (fst ip))))
        (combine (seq i (List.length ps)) ps) = COk params
      /\ Forall2 (fun p c => reads false (fst p) c) params (map fst cPs)
      /\ map snd params = names_from method i (List.length ps)
      /\ cmap (fun ip => arg_expr m d (get_arg_name method (fst ip)) (snd ip)) (combine (seq i (List.length ps)) ps) = COk exprs
      /\ forall env, incl (combine (map snd params) (map fst cPs)) env -> passes env (somes exprs) (somes (map snd cPs)).
  Proof.
    induction 1 as [|p [c P] ps cPs F FA IH]; intros i.
    - exists [], []. repeat split; try constructor. 
    - cbn [List.length seq combine]. destruct (IH (S i)) as (params & exprs & E1 & R & NM & E2 & OK).
      destruct F as (s & ES & RS & EX). destruct (EX (get_arg_name method i)) as (oe & EO & T). cbn [fst snd] in *.
      exists ((s, get_arg_name method i) :: params), (oe :: exprs).
      split; [cbn [cmap fst snd]; fold (@cmap (nat * policy) (string * string)); rewrite ES; cbn [cbind]; fold (cmap (fun ip : nat * policy => cbind (param_type m d (snd ip)) (fun t => COk (t, get_arg_name method (fst ip))))); rewrite E1; reflexivity|].
      split; [constructor; [exact RS | exact R]|].
      split; [cbn; f_equal; exact NM|].
      split; [cbn [cmap fst snd]; rewrite EO; cbn [cbind]; fold (cmap (fun ip : nat * policy => arg_expr m d (get_arg_name method (fst ip)) (snd ip))); rewrite E2; reflexivity|].
      intros env I. cbn [map combine snd fst] in I. apply incl_cons_inv in I. destruct I as [I0 I].
      specialize (OK env I). destruct oe as [e|], P as [P|]; try contradiction; cbn [somes flat_map map snd app].
      + constructor; [exact (T env I0) | exact OK].
      + exact OK.
  Qed.

  Lemma get_arg_name_inj method i j : get_arg_name method i = get_arg_name method j -> i = j.
  Proof.
    unfold get_arg_name. destruct method; cbn [andb].
    - destruct (i =? 0) eqn:EI, (j =? 0) eqn:EJ; intros H.
      + apply Nat.eqb_eq in EI, EJ. congruence.
      + discriminate.
      + discriminate.
      + apply sapp_inj_l in H. apply dec_inj, H.
    - intros H. apply sapp_inj_l in H. apply dec_inj, H.
  Qed.
  Lemma names_nodup method i n : NoDup (names_from method i n).
  Proof. apply FinFun.Injective_map_NoDup; [intros a b; apply get_arg_name_inj | apply seq_NoDup]. Qed.
  (** [targets cf Ps res]: the C++ entity [cf] is to call exists, takes [Ps] (first the object, for
      methods) and gives [res]. *)
  Inductive targets : cpp_function -> list pty -> option pty -> Prop :=
  | ta_function : forall cf ns f Ps res, cf_payload cf = CbFunctionCall ns f -> cf_kind cf = CkFunction ->
      callee (join "::" (ns ++ [f])) None Ps res -> targets cf Ps res
  | ta_static : forall cf ns ty f Ps res, cf_payload cf = CbStaticMethodCall ns ty f -> cf_kind cf = CkFunction ->
      callee (join "::" (ns ++ [ty; f])) None Ps res -> targets cf Ps res
  | ta_method : forall cf ns f k c Ps res, cf_payload cf = CbFunctionCall ns f -> cf_kind cf = CkMethod ->
      callee f (Some (k, c)) Ps res -> targets cf (PLRef k c :: Ps) res
  | ta_constructor : forall cf ns id c Ps, cf_payload cf = CbPlacementNew ns id -> cf_kind cf = CkConstructor ->
      reads false (map_name m (QN ns id)) c -> callee "constructor" (Some (false, c)) Ps None ->
      targets cf (PObj (CPtr false c) :: Ps) None.

  (** [delivers cf cPs res r]: how the result [res] of the call reaches Rust: it becomes a result of
      type [r], or the wrapper returns nothing and one parameter says where the result goes. *)
  Inductive delivers (cf : cpp_function) (cPs : list (cty * option pty)) : option pty -> option cty -> Prop :=
  | dl_void : cf_ret cf = None -> delivers cf cPs None None
  | dl_result : forall p R c, cf_ret cf = Some p -> returns p R c -> ~ In None (map snd cPs) -> delivers cf cPs (Some R) (Some c)
  | dl_place : forall t c rc, cf_ret cf = Some (Policy t CcFromReturnValueToPlacementPtr rc) -> spelled t c ->
      (exists c', In (c', None) cPs) -> (forall c', In (c', None) cPs -> c' = CPtr false c) ->
      delivers cf cPs (Some (PObj c)) None.

  Lemma inits_object k c v : inits (PLRef k c) v -> obj_type v = c /\ (is_const v = true -> k = true).
  Proof. intros H. inversion H; subst; cbn; auto. Qed.
  Lemma inits_type c v : inits (PObj c) v -> obj_type v = c.
  Proof. intros H. inversion H; reflexivity. Qed.
  Lemma inits_result P : inits P (result_of P).
  Proof. destruct P as [c|k c|c]; cbn; constructor; auto. Qed.

  Definition place_names (method : bool) (i : nat) (ps : list policy) : list string :=
    somes (map (fun ip => if is_placement_parameter (snd ip) then Some (get_arg_name method (fst ip)) else None)
             (combine (seq i (List.length ps)) ps)).
  Definition wanted (p : policy) (cP : cty * option pty) : Prop :=
    match snd cP with Some P => suits p (fst cP) P | None => place_for p (fst cP) end.
  Lemma wanted_fits p cP : wanted p cP -> fits RustCallsCpp p (fst cP) (snd cP).
  Proof. unfold wanted. destruct cP as [c [P|]]; cbn; [apply suits_fits | apply place_fits]. Qed.
  Lemma wanted_place p cP : wanted p cP -> is_placement_parameter p = match snd cP with Some _ => false | None => true end.
  Proof.
    unfold wanted. destruct cP as [c [P|]]; cbn [fst snd].
    - intros H. destruct H; reflexivity.
    - intros (t & d & rc & -> & _). reflexivity.
  Qed.
  Lemma places method ps cPs : Forall2 wanted ps cPs -> forall i,
    (~ In None (map snd cPs) -> place_names method i ps = [])
    /\ ((exists c, In (c, None) cPs) -> exists n l c, place_names method i ps = n :: l /\ In (c, None) cPs
         /\ In (n, c) (combine (names_from method i (List.length ps)) (map fst cPs))).
  Proof.
    induction 1 as [|p cP ps cPs W F IH]; intros i.
    - split; [reflexivity | intros [c []]].
    - destruct (IH (S i)) as [N Y]. pose proof (wanted_place _ _ W) as WP. destruct cP as [c P]. cbn [snd fst] in *.
      unfold place_names. cbn [List.length seq combine map snd fst]. rewrite WP. split.
      + intros NI. destruct P as [P|]; [|exfalso; apply NI; left; reflexivity].
        cbn [somes flat_map app]. apply N. intros I. apply NI. right. exact I.
      + intros [c0 I0]. destruct P as [P|].
        * destruct I0 as [I0|I0]; [discriminate|]. destruct (Y (ex_intro _ c0 I0)) as (n & l & c' & E & I1 & I2).
          exists n, l, c'. split; [exact E|]. split; [right; exact I1 | right; exact I2].
        * exists (get_arg_name method i), (place_names method (S i) ps), c. split; [reflexivity|].
          split; [left; reflexivity | left; reflexivity].
  Qed.

  Lemma eqb_app_paren a b : String.eqb (a +++ String "(" b) "" = false.
  Proof. destruct a; reflexivity. Qed.

  (** The conversion of a result. *)
  Lemma returns_fits env p R c call : returns p R c -> has_type env call (result_of R) ->
    exists e s, ret_expr m RustCallsCpp call p = COk (Some e) /\ return_type m RustCallsCpp "void" (Some p) = COk s
      /\ reads false s c /\ exists v, has_type env e v /\ inits (as_param c) v.
  Proof.
    intros H T. destruct H as [t c rc S|t c rc S NR|mu t c rc S]; destruct (spelled_type _ _ S) as (s & E & RD).
    - exists call, s. split; [reflexivity|]. split; [exact E|]. split; [exact RD|].
      exists (result_of (as_param c)). split; [exact T | apply inits_result].
    - exists (XMakeUnique s call), ("std::unique_ptr<" +++ s +++ ">").
      split; [cbn; unfold unconverted_type, unwrapped_type; cbn; rewrite E; reflexivity|].
      split; [cbn; unfold converted_type, unique_ptr_wrapped_type, unwrapped_type; cbn; rewrite E; reflexivity|].
      split; [apply reads_unique, RD|]. exists (Pr (unique_of c)). split; [|constructor].
      eapply ht_unique; [exact RD | exact T | constructor].
    - exists (XAddr call), s. split; [reflexivity|]. split; [|split; [exact RD|]].
      + cbn. unfold converted_type. cbn. cbn [type_to_cpp] in E. unfold mut_string in E. exact E.
      + exists (Pr (CPtr (negb mu) c)). split; [apply ht_addr; exact T | constructor].
  Qed.

  Lemma enumerate_combine {A} (l : list A) : enumerate l = combine (seq 0 (List.length l)) l.
  Proof. reflexivity. Qed.

  (** Finishing a call which has been put together. *)
  Lemma finish_ok cf cPs res r env call : delivers cf cPs res r ->
    Forall2 wanted (cf_args cf) cPs ->
    env = combine (names_from (is_a_method false (cf_kind cf)) 0 (List.length (cf_args cf))) (map fst cPs) ->
    String.eqb (show call) "" = false ->
    match res with Some R => has_type env call (result_of R) | None => runs env (SDo call) None end ->
    cf_kind cf <> CkSynthesizedConstructor ->
    exists s body,
      return_type m RustCallsCpp (match cf_kind cf with CkSynthesizedConstructor => "" | _ => "void" end) (cf_ret cf) = COk s
      /\ finish m RustCallsCpp (cf_ret cf) (hd_error (place_names (is_a_method false (cf_kind cf)) 0 (cf_args cf))) call = COk body
      /\ match r with Some c => reads false s c | None => s = "void" end
      /\ runs env body (option_map as_param r).
  Proof.
    intros D W EN NE T NS.
    replace (match cf_kind cf with CkSynthesizedConstructor => "" | _ => "void" end) with "void" by (destruct (cf_kind cf); congruence).
    destruct (places (is_a_method false (cf_kind cf)) _ _ W 0) as [NP YP].
    destruct D as [R0|p R c R0 RT NI|t c rc R0 S EX ALL]; rewrite R0.
    - exists "void", (SDo call). split; [reflexivity|]. split; [cbn [finish]; rewrite NE; reflexivity|].
      split; [reflexivity | exact T].
    - destruct (returns_fits env p R c call RT T) as (e & s & E1 & E2 & RD & v & TV & IV).
      exists s, (SReturn e). split; [exact E2|]. split; [unfold finish; rewrite E1, (NP NI); reflexivity|].
      split; [exact RD | econstructor; eassumption].
    - destruct (YP EX) as (n & l & c' & E & I1 & I2). specialize (ALL c' I1). subst c'.
      destruct (spelled_type _ _ S) as (s & ES & RS).
      exists "void", (SInto n s call). split; [reflexivity|]. split.
      + unfold finish. cbn [ret_expr cpp_conversion pol_cpp cbind pol_type]. rewrite E. cbn [hd_error]. rewrite ES. reflexivity.
      + split; [reflexivity|].
        eapply ru_into; [rewrite EN; exact I2 | exact RS | exact T | constructor].
  Qed.

  (** * Calls from C++ into Rust *)

  (** [overrides p P c]: a parameter of type [P] of a virtual method is passed on to Rust as a [c]. The
      object is copied out of the parameter, so it must be copyable. *)
  Inductive overrides : policy -> pty -> cty -> Prop :=
  | ov_none : forall t c rc, spelled t c -> (forall d, as_param c = PObj d -> can_copy d) ->
      overrides (Policy t CcNone rc) (as_param c) c
  | ov_value : forall t c rc, spelled t c -> (forall k d, c <> CRef k d) -> can_copy c ->
      overrides (Policy t CcFromUniquePtrToValue rc) (PObj c) (unique_of c).
  (** [gives_back p c P]: Rust's result of type [c] is what the virtual method returns as [P]. *)
  Inductive gives_back : policy -> cty -> pty -> Prop :=
  | gb_none : forall t c rc, spelled t c -> gives_back (Policy t CcNone rc) c (as_param c)
  | gb_value : forall t c rc, spelled t c -> (forall k d, c <> CRef k d) -> can_move c ->
      gives_back (Policy t CcFromValueToUniquePtr rc) (unique_of c) (PObj c).

  Definition as_cty (P : pty) : option cty := match P with PObj c => Some c | PLRef k c => Some (CRef k c) | PRRef _ => None end.
  Lemma as_param_cty c : as_cty (as_param c) = Some c.
  Proof. destruct c; reflexivity. Qed.

  Lemma overrides_fits p P c : overrides p P c -> exists o, as_cty P = Some o /\ as_param o = P /\ fits CppCallsRust p o (Some (as_param c)).
  Proof.
    intros H. destruct H as [t c rc S C|t c rc S NR C]; destruct (spelled_type _ _ S) as (s & E & R).
    - exists c. split; [apply as_param_cty|]. split; [reflexivity|]. exists s. split; [exact E|]. split; [exact R|].
      intros name. exists (Some (XVar name)). split; [reflexivity|]. intros env I. apply var_inits; assumption.
    - exists c. split; [reflexivity|]. split; [destruct c; try reflexivity; edestruct NR; reflexivity|].
      exists s. split; [exact E|]. split; [exact R|].
      intros name. exists (Some (XMakeUnique s (XVar name))).
      split; [cbn; unfold unconverted_type, unwrapped_type; cbn; rewrite E; reflexivity|].
      intros env I. exists (Pr (unique_of c)). split; [|constructor].
      destruct (var_inits env name c I) as (v & TV & IV).
      { intros d ED. destruct c; cbn in ED; try discriminate ED; injection ED as <-; exact C. }
      eapply ht_unique; [exact R | exact TV |]. destruct c; try exact IV. edestruct NR; reflexivity.
  Qed.


  (** Every wrapper for a call from Rust type-checks: it declares one parameter per argument, with
      distinct names; each reaches the C++ function, in order, as the type that function wants; and the
      result is delivered. *)
  Theorem c67_wrapper_typed : forall cf cPs res r,
    cf_pass_obs cf = false -> Forall2 wanted (cf_args cf) cPs ->
    targets cf (somes (map snd cPs)) res -> delivers cf cPs res r ->
    exists d, generate_cpp_function m cf = COk d /\ d_name d = cf_wrapper_name cf /\ well_typed [] d (map fst cPs) r.
  Proof.
    intros cf cPs res r OBS W TG DL. set (method := is_a_method false (cf_kind cf)).
    assert (FA : Forall2 (fun p cP => fits RustCallsCpp p (fst cP) (snd cP)) (cf_args cf) cPs)
      by (clear - W; induction W as [|p cP ps cPs H F IH]; constructor; [exact (wanted_fits _ _ H) | exact IH]).
    destruct (fits_all RustCallsCpp method _ _ FA 0) as (params & exprs & E1 & RD & NM & E2 & PS).
    set (env := combine (map snd params) (map fst cPs)).
    specialize (PS env (incl_refl _)).
    assert (EN : env = combine (names_from method 0 (List.length (cf_args cf))) (map fst cPs)) by (unfold env; rewrite NM; reflexivity).
    assert (ND : NoDup (map snd params ++ map fst (@nil (string * cty)))) by (rewrite app_nil_r, NM; apply names_nodup).
    assert (K : exists call, underlying_call m (cf_payload cf) (if method then hd_error (somes exprs) else None)
                               (if method then tl (somes exprs) else somes exprs) = COk (call, false)
                /\ String.eqb (show call) "" = false
                /\ match res with Some R => has_type env call (result_of R) | None => runs env (SDo call) None end
                /\ cf_kind cf <> CkSynthesizedConstructor /\ (forall s, cf_payload cf <> CbConstructSuperclass s)
                /\ (match cf_kind cf with CkConstMethod => true | _ => false end) = false).
    { remember (somes (map snd cPs)) as PL eqn:EP. subst method.
      destruct TG as [cf ns f Ps res PA KI CA|cf ns ty f Ps res PA KI CA|cf ns f k c Ps res PA KI CA|cf ns id c Ps PA KI RI CA];
        rewrite PA, KI in *; cbn [is_a_method negb andb].
      - exists (XCall (join "::" (ns ++ [f])) (somes exprs)). split; [reflexivity|].
        split; [cbn [show]; apply eqb_app_paren|]. split; [|repeat split; discriminate].
        destruct res; econstructor; eassumption.
      - exists (XCall (join "::" (ns ++ [ty; f])) (somes exprs)). split; [reflexivity|].
        split; [cbn [show]; apply eqb_app_paren|]. split; [|repeat split; discriminate].
        destruct res; econstructor; eassumption.
      - unfold passes in PS. inversion PS as [|e ? es ? (v & TV & IV) PS' EE]; subst. destruct (inits_object _ _ _ IV) as [<- KC].
        cbn [hd_error tl]. exists (XMethod e f es). split; [reflexivity|].
        split; [cbn [show]; destruct (show e); reflexivity|]. split; [|repeat split; discriminate].
        destruct res; econstructor; eassumption.
      - unfold passes in PS. inversion PS as [|e ? es ? (v & TV & IV) PS' EE]; subst. apply inits_type in IV.
        cbn [hd_error tl]. exists (XPlacementNew e (map_name m (QN ns id)) es). split; [reflexivity|].
        split; [reflexivity|]. split; [|repeat split; discriminate].
        econstructor; eassumption. }
    destruct K as (call & UC & NE & TC & NS & NC & CF).
    destruct (finish_ok cf cPs res r env call DL W EN NE TC NS) as (s & body & ER & EF & RR & RB).
    exists (Def s (cf_wrapper_name cf) params false (match cf_qualification cf with Some q => Some (to_cpp_name q) | None => None end)
              None body true false).
    split; [|split; [reflexivity|]].
    - unfold generate_cpp_function, generate_cpp_function_inner. fold method. rewrite enumerate_combine, E1.
      cbn [cbind]. rewrite ER. cbn [cbind]. rewrite E2. cbn [cbind]. rewrite OBS.
      match goal with |- context [underlying_call m ?a ?b ?c] => replace (underlying_call m a b c) with (COk (call, false) : conv (cxp * bool)) end.
      2: { rewrite <- UC. destruct (cf_payload cf); reflexivity. }
      cbn [cbind]. unfold place_names in EF. fold method in EF. rewrite EF. cbn [cbind]. rewrite CF.
      destruct (cf_payload cf); try reflexivity. destruct (NC sup eq_refl).
    - unfold well_typed. cbn [d_params d_ret d_body map] in *. rewrite !app_nil_r in *.
      split; [exact RD|]. split; [exact ND|]. split; [exact RR | exact RB].
  Qed.


  (** Every overriding method has exactly the parameter types, return type and constness of the method it
      overrides, and type-checks: each parameter reaches the Rust function, in order, after the object
      holding the Rust side. *)
  Theorem c49_override_typed : forall cpp rust_name cpp_name const an Ps cs holder res r,
    Forall2 (fun a Pc => overrides (a_conv a) (fst Pc) (snd Pc)) (tl (fa_details an)) (combine Ps cs) ->
    List.length Ps = List.length cs ->
    callee rust_name None (PLRef true holder :: map as_param cs) res ->
    match fa_ret_conv an, res, r with
    | None, None, None => True
    | Some p, Some R, Some P => exists c, R = as_param c /\ gives_back p c P
    | _, _, _ => False
    end ->
    exists d os ro, override_of m (subclass_cpp_impl cpp rust_name cpp_name const an) = COk d
      /\ d_name d = cpp_name /\ d_const d = const /\ d_qual d = Some (to_cpp_name cpp)
      /\ map as_param os = Ps /\ option_map as_param ro = r
      /\ well_typed [("obs", box_of holder)] d os ro.
  Proof.
    intros cpp rn cn const an Ps cs holder res r OV LEN CA RET.
    assert (X : exists os, map as_param os = Ps /\
      Forall2 (fun p oP => fits CppCallsRust p (fst oP) (snd oP)) (map a_conv (tl (fa_details an)))
        (combine os (map (fun c => Some (as_param c)) cs)) /\ List.length os = List.length cs).
    { clear - OV LEN. remember (combine Ps cs) as L eqn:EL. revert Ps cs EL LEN.
      induction OV as [|a [P c] l L H F IH]; intros Ps cs EL LEN.
      - destruct Ps, cs; try discriminate. exists []. repeat split; constructor.
      - destruct Ps as [|P' Ps], cs as [|c' cs]; try discriminate. cbn [combine] in EL. injection EL as -> -> ->.
        destruct (IH Ps cs eq_refl ltac:(cbn in LEN; congruence)) as (os & E & F2 & L2).
        cbn [fst snd] in H. destruct (overrides_fits _ _ _ H) as (o & _ & EO & FO). exists (o :: os).
        split; [cbn; congruence|]. split; [cbn; constructor; assumption | cbn; congruence]. }
    destruct X as (os & EO & FA & LO).
    destruct (fits_all CppCallsRust false _ _ FA 0) as (params & exprs & E1 & RD & NM & E2 & PS).
    assert (F1 : map fst (combine os (map (fun c => Some (as_param c)) cs)) = os).
    { clear - LO. revert cs LO. induction os as [|o os IH]; intros [|c cs] L; try discriminate; [reflexivity|].
      cbn. f_equal. apply IH. cbn in L. congruence. }
    assert (F2 : somes (map snd (combine os (map (fun c => Some (as_param c)) cs))) = map as_param cs).
    { clear - LO. revert cs LO. induction os as [|o os IH]; intros [|c cs] L; try discriminate; [reflexivity|].
      cbn. f_equal. apply IH. cbn in L. congruence. }
    rewrite F1 in *. rewrite F2 in PS.
    set (env := combine (map snd params) os ++ [("obs", box_of holder)]).
    specialize (PS env ltac:(apply incl_appl, incl_refl)).
    assert (OB : has_type env (XDeref (XVar "obs")) (Lv false holder)).
    { eapply ht_deref; [apply ht_var; [unfold env; apply in_or_app; right; left; reflexivity | discriminate] | apply de_box]. }
    assert (PS' : passes env (XDeref (XVar "obs") :: somes exprs) (PLRef true holder :: map as_param cs)).
    { constructor; [|exact PS]. exists (Lv false holder). split; [exact OB | constructor; auto]. }
    assert (ND : NoDup (map snd params ++ ["obs"])).
    { rewrite NM. clear. generalize (names_nodup false 0 (List.length (map a_conv (tl (fa_details an))))).
      assert (NI : ~ In "obs" (names_from false 0 (List.length (map a_conv (tl (fa_details an)))))).
      { unfold names_from. intros I. apply in_map_iff in I. destruct I as (i & E & _). discriminate. }
      revert NI. generalize (names_from false 0 (List.length (map a_conv (tl (fa_details an))))).
      induction l as [|x l IH]; intros NI ND; cbn; [constructor; [intros [] | constructor]|].
      inversion ND; subst. constructor.
      - rewrite in_app_iff. intros [I|[E|[]]]; [contradiction|]. apply NI. left; symmetry; exact E.
      - apply IH; [intros I; apply NI; right; exact I | assumption]. }
    assert (NPL : somes (map (fun ip => if is_placement_parameter (snd ip) then Some (get_arg_name false (fst ip)) else None)
                (enumerate (map a_conv (tl (fa_details an))))) = []).
    { rewrite enumerate_combine. clear - OV. generalize 0. remember (combine Ps cs) as L. clear HeqL.
      induction OV as [|a Pc l L H F IH]; intros i; [reflexivity|]. cbn [map List.length seq combine snd fst].
      replace (is_placement_parameter (a_conv a)) with false by (destruct H; reflexivity). apply IH. }
    assert (K : exists s body ro, return_type m CppCallsRust "void" (fa_ret_conv an) = COk s
      /\ finish m CppCallsRust (fa_ret_conv an) None (XCall rn (XDeref (XVar "obs") :: somes exprs)) = COk body
      /\ match ro with Some c => reads false s c | None => s = "void" end /\ option_map as_param ro = r
      /\ runs env body (option_map as_param ro)).
    { destruct (fa_ret_conv an) as [p|], res as [R|], r as [P|]; try contradiction.
      - destruct RET as (c & -> & GB).
        assert (TC : has_type env (XCall rn (XDeref (XVar "obs") :: somes exprs)) (result_of (as_param c))) by (econstructor; eassumption).
        destruct GB as [t c rc S|t c rc S NR MV]; destruct (spelled_type _ _ S) as (s & E & RS).
        + eexists s, _, (Some c). split; [exact E|]. split; [reflexivity|]. split; [exact RS|]. split; [reflexivity|].
          econstructor; [exact TC | apply inits_result].
        + eexists s, _, (Some c). split; [exact E|]. split; [reflexivity|]. split; [exact RS|].
          assert (EP : as_param c = PObj c) by (destruct c; try reflexivity; edestruct NR; reflexivity).
          split; [cbn; f_equal; exact EP|]. cbn [option_map]. rewrite EP.
          econstructor; [apply ht_move; eapply ht_deref; [exact TC | apply de_unique] | apply in_move, MV].
      - exists "void", (SDo (XCall rn (XDeref (XVar "obs") :: somes exprs))), None. split; [reflexivity|].
        assert (NE : String.eqb (show (XCall rn (XDeref (XVar "obs") :: somes exprs))) "" = false) by (cbn [show]; apply eqb_app_paren).
        split; [unfold finish; rewrite NE; reflexivity|]. split; [reflexivity|]. split; [reflexivity|].
        econstructor; eassumption. }
    destruct K as (s & body & ro & ER & EF & RR & RO & RB).
    exists (Def s cn params const (Some (to_cpp_name cpp)) None body false false), os, ro.
    split.
    - unfold override_of, generate_cpp_function_inner, subclass_cpp_impl.
      cbn [cf_payload cf_wrapper_name cf_original_name cf_ret cf_args cf_kind cf_pass_obs cf_qualification is_a_method negb andb].
      rewrite NPL. rewrite enumerate_combine, E1. cbn [cbind].
      replace (match (if const then CkConstMethod else CkMethod) with CkSynthesizedConstructor => "" | _ => "void" end) with "void" by (destruct const; reflexivity).
      rewrite ER. cbn [cbind]. rewrite E2. cbn [cbind underlying_call app join hd_error]. rewrite EF. cbn [cbind]. destruct const; reflexivity.
    - cbn [d_name d_const d_qual]. repeat (split; [reflexivity|]). split; [exact EO|]. split; [exact RO|].
      unfold well_typed. cbn [d_params d_ret d_body map fst]. split; [exact RD|]. split; [exact ND|]. split; [exact RR | exact RB].
  Qed.

  (** What Rust is told the type is: the type the C++ side passes. *)
  Theorem c49_rust_sees_what_cpp_passes : forall p P c, overrides p P c -> qget (QN ["cxx"] "UniquePtr") m = None ->
    denotes m (converted_rust_type p) c.
  Proof.
    intros p P c H NM. destruct H as [t c rc [D W] C|t c rc [D W] NR C]; [exact D|].
    unfold converted_rust_type, make_unique_ptr_type. cbn [pol_cpp pol_type].
    assert (MN : map_name m (QN ["cxx"] "UniquePtr") = "std::unique_ptr") by (unfold map_name; rewrite NM; vm_compute; reflexivity).
    unfold unique_of. rewrite <- MN. apply dn_path.
    - apply ref_plain; discriminate.
    - rewrite MN. discriminate.
    - constructor; [exact D | constructor].
  Qed.

  (** [forwards p P]: a parameter of type [P] is copied into a call of the superclass's method. *)
  Inductive forwards : policy -> pty -> Prop :=
  | fw_same : forall t c cc rc, spelled t c -> cc = CcNone \/ cc = CcFromUniquePtrToValue -> (forall d, as_param c = PObj d -> can_copy d) ->
      forwards (Policy t cc rc) (as_param c).
  Lemma forwards_fits p P : forwards p P -> exists o, as_param o = P /\ fits CppCallsCpp p o (Some P).
  Proof.
    intros [t c cc rc S K C]. destruct (spelled_type _ _ S) as (s & E & R). exists c. split; [reflexivity|].
    exists s. split; [destruct K as [-> | ->]; exact E|]. split; [exact R|].
    intros name. exists (Some (XVar name)). split; [reflexivity|]. intros env I. apply var_inits; assumption.
  Qed.
  (** Every call of a superclass's method type-checks. *)
  Theorem c49_super_typed : forall sup name cf Ps res r,
    Forall2 forwards (cf_args cf) Ps ->
    callee (join "::" (qn_ns sup ++ [qn_item sup; cf_original_name cf])) None Ps res ->
    (cf_kind cf = CkMethod \/ cf_kind cf = CkConstMethod) ->
    match cf_ret cf, res, r with
    | None, None, None => True
    | Some p, Some R, Some c => R = as_param c /\ spelled (pol_type p) c /\ (pol_cpp p = CcNone \/ pol_cpp p = CcFromValueToUniquePtr)
    | _, _, _ => False
    end ->
    exists d os, super_call_of m sup name cf = COk d /\ d_name d = name /\ map as_param os = Ps /\ well_typed [] d os r.
  Proof.
    intros sup name cf Ps res r FW CA KI RET.
    assert (X : exists os, map as_param os = Ps /\
      Forall2 (fun p oP => fits CppCallsCpp p (fst oP) (snd oP)) (cf_args cf) (combine os (map Some Ps)) /\ List.length os = List.length Ps).
    { clear - FW. induction FW as [|p P l Ps H F IH]; [exists []; repeat split; constructor|].
      destruct IH as (os & E & F2 & L2). destruct (forwards_fits _ _ H) as (o & EO & FO). exists (o :: os).
      split; [cbn; congruence|]. split; [cbn; constructor; assumption | cbn; congruence]. }
    destruct X as (os & EO & FA & LO).
    destruct (fits_all CppCallsCpp false _ _ FA 0) as (params & exprs & E1 & RD & NM & E2 & PS).
    assert (F1 : map fst (combine os (map Some Ps)) = os /\ somes (map snd (combine os (map Some Ps))) = Ps).
    { clear - LO. revert Ps LO. induction os as [|o os IH]; intros [|c cs] L; try discriminate; [split; reflexivity|].
      destruct (IH cs ltac:(cbn in L; congruence)) as [A B]. split; cbn; f_equal; assumption. }
    destruct F1 as [F1 F2]. rewrite F1, F2 in *.
    specialize (PS _ (incl_refl _)). set (env := combine (map snd params) os) in *.
    assert (ND : NoDup (map snd params)) by (rewrite NM; apply names_nodup).
    assert (NPL : somes (map (fun ip => if is_placement_parameter (snd ip) then Some (get_arg_name false (fst ip)) else None)
                (enumerate (cf_args cf))) = []).
    { rewrite enumerate_combine. clear - FW. generalize 0.
      induction FW as [|p P l Ps H F IH]; intros i; [reflexivity|]. cbn [map List.length seq combine snd fst].
      replace (is_placement_parameter p) with false by (destruct H as [t c cc rc S [-> | ->] C]; reflexivity). apply IH. }
    set (f := join "::" (qn_ns sup ++ [qn_item sup; cf_original_name cf])) in *.
    assert (K : exists s body, return_type m CppCallsCpp "void" (cf_ret cf) = COk s
      /\ finish m CppCallsCpp (cf_ret cf) None (XCall f (somes exprs)) = COk body
      /\ match r with Some c => reads false s c | None => s = "void" end
      /\ runs env body (option_map as_param r)).
    { destruct (cf_ret cf) as [p|], res as [R|], r as [c|]; try contradiction.
      - destruct RET as (-> & S & KC). destruct (spelled_type _ _ S) as (s & E & RS). exists s, (SReturn (XCall f (somes exprs))).
        split; [cbn; unfold unconverted_type, unwrapped_type; destruct KC as [-> | ->]; exact E|].
        split; [reflexivity|]. split; [exact RS|]. cbn [option_map]. econstructor; [econstructor; eassumption | apply inits_result].
      - exists "void", (SDo (XCall f (somes exprs))). split; [reflexivity|].
        assert (NE : String.eqb (show (XCall f (somes exprs))) "" = false) by (cbn [show]; apply eqb_app_paren).
        split; [unfold finish; rewrite NE; reflexivity|]. split; [reflexivity | econstructor; eassumption]. }
    destruct K as (s & body & ER & EF & RR & RB).
    exists (Def s name params (match cf_kind cf with CkConstMethod => true | _ => false end)
              (match cf_qualification cf with Some q => Some (to_cpp_name q) | None => None end) None body true false), os.
    split.
    - unfold super_call_of, generate_cpp_function_inner.
      cbn [cf_payload cf_wrapper_name cf_original_name cf_ret cf_args cf_kind cf_pass_obs cf_qualification is_a_method negb andb].
      rewrite NPL. rewrite enumerate_combine, E1. cbn [cbind].
      replace (match cf_kind cf with CkSynthesizedConstructor => "" | _ => "void" end) with "void" by (destruct KI as [-> | ->]; reflexivity).
      rewrite ER. cbn [cbind]. rewrite E2. cbn [cbind underlying_call hd_error]. fold f. rewrite EF. reflexivity.
    - split; [reflexivity|]. split; [exact EO|]. unfold well_typed. cbn [d_params d_ret d_body map]. rewrite !app_nil_r.
      split; [exact RD|]. split; [exact ND|]. split; [exact RR | exact RB].
  Qed.
End Cpp.

(** * There and back *)

(** Conversions between a value and a [unique_ptr], and no conversion at all, are undone by their
    inverse: both types change places, and the inverse of the inverse is the conversion again. *)
Theorem c49_inverse : forall m p, pol_cpp p = CcNone \/ pol_cpp p = CcFromUniquePtrToValue \/ pol_cpp p = CcFromValueToUniquePtr ->
  exists q, policy_inverse p = Some q /\ policy_inverse q = Some p
    /\ unconverted_type m q = converted_type m p /\ converted_type m q = unconverted_type m p.
Proof.
  intros m [t c rc]. cbn [pol_cpp]. intros [-> | [-> | ->]]; eexists; repeat (split; [reflexivity|]); reflexivity.
Qed.

(** The other conversions are not: those between pointers and references name the pointer type on both
    sides, so the overriding method takes a pointer where the method it overrides takes a reference. *)
Theorem c49_reference_refuted : exists m p q s,
  p = Policy (TPtr false (TPath [] "A" [])) CcFromPointerToReference RcFromReferenceWrapperToPointer
  /\ policy_inverse p = Some q /\ unconverted_type m p = COk s /\ converted_type m p = COk s
  /\ param_type m CppCallsRust p = COk s /\ reads false s (CPtr true (CBase "A" []))
  /\ forall copyable movable P, suits copyable movable m p (CPtr true (CBase "A" [])) P -> P = PLRef true (CBase "A" []).
Proof.
  exists [], (Policy (TPtr false (TPath [] "A" [])) CcFromPointerToReference RcFromReferenceWrapperToPointer).
  eexists. exists "const A*". split; [reflexivity|]. split; [reflexivity|]. split; [vm_compute; reflexivity|].
  split; [vm_compute; reflexivity|]. split; [vm_compute; reflexivity|]. split.
  - exact (rd_ptr true "const A" (CBase "A" []) (rd_const "A" "A" [] (rd_name "A" ltac:(repeat split; discriminate)))).
  - intros cp mv P H. inversion H; subst. f_equal. 
Qed.

(** The conversion of an rvalue reference is not undone either: the overriding method would take the
    object by value and hand Rust a [unique_ptr], where Rust expects a pointer. *)
Theorem c49_rvalue_refuted : exists m p q s s',
  p = Policy (TPath [] "A" []) CcFromPtrToValue RcFromRValueParamToPtr /\ policy_inverse p = Some q
  /\ policy_inverse q <> Some p
  /\ unconverted_type m p = COk s /\ converted_type m q = COk s' /\ s = "A*" /\ s' = "std::unique_ptr<A>".
Proof.
  exists [], (Policy (TPath [] "A" []) CcFromPtrToValue RcFromRValueParamToPtr). eexists. exists "A*", "std::unique_ptr<A>".
  split; [reflexivity|]. split; [reflexivity|]. split; [discriminate|]. repeat split; vm_compute; reflexivity.
Qed.

(** A parameter moved into C++ has no inverse: generating an overriding method for it panics, whatever
    else the method takes. *)
Theorem c49_move_panics_refuted : forall m cpp rn cn const an a rest,
  tl (fa_details an) = a :: rest -> pol_cpp (a_conv a) = CcMove ->
  override_of m (subclass_cpp_impl cpp rn cn const an) = CPanic.
Proof.
  intros m cpp rn cn const an a rest E M. unfold override_of, subclass_cpp_impl, generate_cpp_function_inner.
  cbn [cf_args]. rewrite E. cbn [map]. unfold enumerate. cbn [List.length seq combine cmap fst snd param_type].
  unfold inverse_then, policy_inverse. rewrite M. reflexivity.
Qed.
(** Such parameters are what function analysis makes of every [std::unique_ptr] passed by value to a
    virtual method. *)
Theorem c49_unique_ptr_moved : forall env an args k,
  ann_ty an = TPath ["cxx"] "UniquePtr" args -> ann_kind an = k -> (forall q, k <> TkSubclassHolder q) ->
  qmem (QN ["cxx"] "UniquePtr") (fe_pod_safe env) = true -> fe_policy env <> ReferencesWrapped ->
  option_map pol_cpp (argument_conversion_details env an false None SimpleForSubclasses false false) = Some CcMove.
Proof.
  intros env an args k E K NK PS PO. unfold argument_conversion_details. rewrite K.
  assert (G : option_map pol_cpp (general_conversion env an false None SimpleForSubclasses false false) = Some CcMove).
  { unfold general_conversion. rewrite E. unfold is_wrapped_policy. destruct (fe_policy env); try congruence;
    cbn [andb]; change (path_name ["cxx"] "UniquePtr") with (Some (QN ["cxx"] "UniquePtr")); cbv beta iota;
    rewrite PS; reflexivity. }
  destruct k; try exact G. edestruct NK; reflexivity.
Qed.

(** * Order of arguments *)

Lemma show_call_ne f args : String.eqb (show (XCall f args)) "" = false.
Proof. cbn [show]. apply eqb_app_paren. Qed.

(** Variables an expression reads, from left to right. *)
Fixpoint vars (e : cxp) : list string :=
  match e with
  | XVar v => [v]
  | XParenDeref e | XDeref e | XMove e | XAddr e | XMakeUnique _ e => vars e
  | XCall _ args | XArgs args => flat_map vars args
  | XMethod r _ args | XPlacementNew r _ args => vars r ++ flat_map vars args
  | XDestroy objs _ _ => flat_map vars objs
  | XAlloc _ | XEmpty => []
  | XFree _ => ["arg0"]
  end.
Definition stmt_vars (s : stmt) : list string :=
  match s with SNone => [] | SDo e | SReturn e | SInto _ _ e => vars e end.

Lemma cpp_conversion_vars m p e r o : cpp_conversion m p e r = COk o ->
  match o with Some e' => vars e' = vars e | None => pol_cpp p = CcIgnoredPlacementPtrParameter end.
Proof.
  unfold cpp_conversion. destruct (pol_cpp p) eqn:E; intros H; try (injection H as <-; reflexivity).
  - injection H as <-. destruct r; reflexivity.
  - destruct (unconverted_type m p); try discriminate. injection H as <-. reflexivity.
Qed.
Lemma inverse_not_placement p q : policy_inverse p = Some q -> pol_cpp q <> CcIgnoredPlacementPtrParameter.
Proof. unfold policy_inverse. destruct (pol_cpp p); cbn; intros H; try discriminate; injection H as <-; discriminate. Qed.
Lemma arg_expr_vars m d name p o : arg_expr m d name p = COk o ->
  match o with Some e => vars e = [name] | None => d = RustCallsCpp /\ is_placement_parameter p = true end.
Proof.
  unfold arg_expr, inverse_then. destruct d.
  - intros H. apply cpp_conversion_vars in H. destruct o; [exact H|]. unfold is_placement_parameter. rewrite H. auto.
  - intros H. injection H as <-. reflexivity.
  - destruct (policy_inverse p) eqn:E; [|discriminate]. intros H. apply cpp_conversion_vars in H. destruct o; [exact H|].
    apply inverse_not_placement in E. contradiction.
Qed.
Lemma arg_expr_placed m name p e : arg_expr m RustCallsCpp name p = COk (Some e) -> is_placement_parameter p = false.
Proof. unfold arg_expr, cpp_conversion, is_placement_parameter. destruct (pol_cpp p); try reflexivity. discriminate. Qed.
Lemma ret_expr_vars m d call p e : ret_expr m d call p = COk (Some e) -> vars e = vars call.
Proof.
  unfold ret_expr, inverse_then. destruct d.
  - intros H. apply cpp_conversion_vars in H. exact H.
  - intros H. injection H as <-. reflexivity.
  - destruct (policy_inverse p); [|discriminate]. intros H. apply cpp_conversion_vars in H. exact H.
Qed.

(** The parameters the wrapper passes on: all but, in calls from Rust, those which only say where the
    result goes. *)
Definition passed_on (d : direction) (method : bool) (ps : list policy) (i : nat) : list string :=
  map (fun ip => get_arg_name method (fst ip))
    (filter (fun ip => match d with RustCallsCpp => negb (is_placement_parameter (snd ip)) | _ => true end) (combine (seq i (List.length ps)) ps)).

Lemma exprs_vars m d method ps : forall i exprs,
  cmap (fun ip => arg_expr m d (get_arg_name method (fst ip)) (snd ip)) (combine (seq i (List.length ps)) ps) = COk exprs ->
  map vars (somes exprs) = map (fun n => [n]) (passed_on d method ps i).
Proof.
  induction ps as [|p ps IH]; intros i exprs H.
  - injection H as <-. reflexivity.
  - cbn [List.length seq combine cmap fst snd] in H. destruct (arg_expr m d (get_arg_name method i) p) as [o| |] eqn:E; try discriminate.
    cbn [cbind] in H.
    fold (cmap (fun ip : nat * policy => arg_expr m d (get_arg_name method (fst ip)) (snd ip))) in H.
    destruct (cmap _ (combine (seq (S i) (List.length ps)) ps)) as [es| |] eqn:E2; try discriminate. injection H as <-.
    specialize (IH (S i) es E2). unfold passed_on. cbn [List.length seq combine filter snd fst].
    pose proof (arg_expr_vars _ _ _ _ _ E) as V. destruct o as [e|].
    + replace (match d with RustCallsCpp => negb (is_placement_parameter p) | _ => true end) with true.
      * cbn [somes flat_map app map]. rewrite V. f_equal. exact IH.
      * destruct d; try reflexivity. rewrite (arg_expr_placed _ _ _ _ E). reflexivity.
    + destruct V as [-> V]. rewrite V. exact IH.
Qed.
Lemma flat_map_concat {A B} (f : A -> list B) l : flat_map f l = concat (map f l).
Proof. induction l as [|a l IH]; cbn; [|rewrite IH]; reflexivity. Qed.
Lemma concat_single {A} (l : list A) : concat (map (fun a => [a]) l) = l.
Proof. induction l as [|a l IH]; cbn; [|rewrite IH]; reflexivity. Qed.

(** Whatever is called, it is given every parameter of the wrapper once, in order; and if a parameter
    says where the result goes, it goes there. *)
Theorem c67_arguments_in_order : forall m cf avoid d rd force def,
  generate_cpp_function_inner m cf avoid d rd force = COk def ->
  cf_pass_obs cf = false ->
  match cf_payload cf with
  | CbFunctionCall _ _ | CbPlacementNew _ _ => True
  | CbStaticMethodCall _ _ _ | CbDestructor _ _ => is_a_method avoid (cf_kind cf) = false
  | CbCast => is_a_method avoid (cf_kind cf) = false /\ cf_ret cf <> None
  | _ => False
  end ->
  map snd (d_params def) = names_from (is_a_method avoid (cf_kind cf)) 0 (List.length (cf_args cf))
  /\ stmt_vars (d_body def) = passed_on d (is_a_method avoid (cf_kind cf)) (cf_args cf) 0
  /\ forall pl t e, d_body def = SInto pl t e ->
       exists i p, nth_error (cf_args cf) i = Some p /\ is_placement_parameter p = true /\ pl = get_arg_name (is_a_method avoid (cf_kind cf)) i.
Proof.
  intros m cf avoid d rd force def H OB PL. unfold generate_cpp_function_inner in H. rewrite OB in H.
  set (method := is_a_method avoid (cf_kind cf)) in *. rewrite enumerate_combine in H.
  destruct (cmap _ _) as [params| |] eqn:E1 in H; try discriminate. cbn [cbind] in H.
  destruct (return_type _ _ _ _) as [rt| |] eqn:ER in H; try discriminate. cbn [cbind] in H.
  destruct (cmap (fun ip => arg_expr _ _ _ _) _) as [exprs| |] eqn:E2 in H; try discriminate. cbn [cbind] in H.
  destruct (underlying_call _ _ _ _) as [[call al]| |] eqn:UC in H; try discriminate. cbn [cbind] in H.
  destruct (finish _ _ _ _ _) as [body| |] eqn:EF in H; try discriminate. injection H as <-. cbn [d_params d_body].
  split; [|split].
  - clear - E1. unfold names_from. revert params E1. generalize 0 as i. induction (cf_args cf) as [|p ps IH]; intros i params E.
    + injection E as <-. reflexivity.
    + cbn [List.length seq combine cmap fst snd] in E. destruct (param_type m d p); try discriminate. cbn [cbind] in E.
      match type of E with cbind ?x _ = _ => destruct x as [ps'| |] eqn:E2; try discriminate end. injection E as <-.
      cbn [List.length seq map snd]. f_equal. exact (IH (S i) ps' E2).
  - apply exprs_vars in E2.
    assert (VC : vars call = passed_on d method (cf_args cf) 0).
    { rewrite <- (concat_single (passed_on d method (cf_args cf) 0)), <- E2.
      destruct (cf_payload cf); try contradiction; cbn [underlying_call] in UC.
      - destruct method.
        + destruct (somes exprs) as [|e es]; cbn [hd_error tl] in UC.
          * injection UC as <- <-. reflexivity.
          * injection UC as <- <-. cbn [vars]. rewrite flat_map_concat. reflexivity.
        + injection UC as <- <-. cbn [vars]. apply flat_map_concat.
      - rewrite PL in UC. injection UC as <- <-. cbn [vars]. apply flat_map_concat.
      - destruct method; [|discriminate]. destruct (somes exprs) as [|e es]; cbn [hd_error tl] in UC; [discriminate|].
        injection UC as <- <-. cbn [vars]. rewrite flat_map_concat. reflexivity.
      - destruct PL as [PL _]. rewrite PL in UC. injection UC as <- <-. cbn [vars]. apply flat_map_concat.
      - rewrite PL in UC. injection UC as <- <-. cbn [vars]. apply flat_map_concat. }
    rewrite <- VC. unfold finish in EF. destruct (cf_ret cf) as [p|].
    + destruct (ret_expr m d call p) as [[e|]| |] eqn:RE; try discriminate. cbn [cbind] in EF. apply ret_expr_vars in RE.
      destruct (hd_error _) in EF; [destruct (type_to_cpp _ _); try discriminate|]; injection EF as <-; exact RE.
    + injection EF as <-. destruct (String.eqb (show call) "") eqn:S; [|reflexivity].
      exfalso. destruct (cf_payload cf); try contradiction; cbn [underlying_call] in UC.
      * match type of UC with match ?x with _ => _ end = _ => destruct x as [o|] end; injection UC as <- <-.
        -- cbn [show] in S. destruct (show o); discriminate S.
        -- rewrite show_call_ne in S. discriminate S.
      * injection UC as <- <-. rewrite show_call_ne in S. discriminate S.
      * match type of UC with match ?x with _ => _ end = _ => destruct x as [o|] end; [injection UC as <- <-; discriminate S | discriminate UC].
      * destruct PL as [_ PL]. congruence.
      * injection UC as <- <-. cbn [show] in S. destruct ns; [|destruct (qget _ _); discriminate S].
        destruct (join ", " _); discriminate S.
  - intros pl t e ->. unfold finish in EF. destruct (cf_ret cf) as [p|]; [|destruct (String.eqb _ _); discriminate].
    destruct (ret_expr m d call p) as [[e'|]| |]; try discriminate. cbn [cbind] in EF.
    destruct (hd_error _) as [n|] eqn:HD in EF; [|discriminate]. destruct (type_to_cpp _ _); try discriminate. injection EF as -> _ _.
    clear - HD. assert (G : forall ps i n, hd_error (somes (map (fun ip => if is_placement_parameter (snd ip)
        then Some (get_arg_name method (fst ip)) else None) (combine (seq i (List.length ps)) ps))) = Some n ->
        exists j q, nth_error ps j = Some q /\ is_placement_parameter q = true /\ n = get_arg_name method (i + j)).
    { clear. induction ps as [|q ps IH]; intros i n H; [discriminate|]. cbn [List.length seq combine map snd fst] in H.
      destruct (is_placement_parameter q) eqn:E.
      - injection H as <-. exists 0, q. rewrite Nat.add_0_r. auto.
      - destruct (IH (S i) n H) as (j & q' & A & B & C). exists (S j), q'. rewrite Nat.add_succ_r. auto. }
    exact (G _ 0 _ HD).
Qed.

Lemma tl_map {A B} (f : A -> B) l : tl (map f l) = map f (tl l).
Proof. destruct l; reflexivity. Qed.
(** The receiver of a member function is the first parameter, and the call is made on it and on nothing
    else: the expression before the dot is built from [autocxx_gen_this] alone. *)
Theorem c67_call_on_receiver : forall m cf d rd force def ns name p ps,
  generate_cpp_function_inner m cf false d rd force = COk def ->
  cf_kind cf = CkMethod \/ cf_kind cf = CkConstMethod \/ cf_kind cf = CkConstructor ->
  cf_payload cf = CbFunctionCall ns name -> cf_pass_obs cf = false -> cf_args cf = p :: ps ->
  (d = RustCallsCpp -> is_placement_parameter p = false) -> cf_ret cf = None ->
  exists r args, d_body def = SDo (XMethod r name args) /\ vars r = ["autocxx_gen_this"]
    /\ exists t, hd_error (d_params def) = Some (t, "autocxx_gen_this").
Proof.
  intros m cf d rd force def ns name p ps H K PL OB AR NP RT. unfold generate_cpp_function_inner in H.
  assert (ME : is_a_method false (cf_kind cf) = true) by (destruct K as [->|[->| ->]]; reflexivity).
  rewrite ME, OB, PL, RT, AR, enumerate_combine in H. clear ME.
  destruct (cmap _ _) as [params| |] eqn:E1 in H; try discriminate. cbn [cbind] in H.
  destruct (return_type _ _ _ _) as [rt| |] eqn:ER in H; try discriminate. cbn [cbind] in H.
  destruct (cmap (fun ip => arg_expr _ _ _ _) _) as [exprs| |] eqn:E2 in H; try discriminate. cbn [cbind] in H.
  apply exprs_vars in E2. unfold passed_on in E2. cbn [List.length seq combine filter snd fst map] in E2.
  replace (match d with RustCallsCpp => negb (is_placement_parameter p) | _ => true end) with true in E2.
  2: { destruct d; try reflexivity. rewrite (NP eq_refl). reflexivity. }
  cbn [map fst get_arg_name andb Nat.eqb] in E2.
  destruct (somes exprs) as [|r args] eqn:ES; [discriminate|]. cbn [map] in E2. injection E2 as VR _.
  cbn [hd_error tl underlying_call cbind] in H. unfold finish in H.
  assert (N : String.eqb (show (XMethod r name args)) "" = false) by (cbn [show]; destruct (show r); reflexivity).
  rewrite N in H. cbn [cbind] in H. injection H as <-. cbn [d_body d_params]. exists r, args. split; [reflexivity|]. split; [exact VR|].
  cbn [List.length seq combine cmap fst snd] in E1. destruct (param_type m d p) as [t| |]; try discriminate. cbn [cbind] in E1.
  match type of E1 with cbind ?x _ = _ => destruct x as [ps'| |]; try discriminate end. injection E1 as <-. exists t. reflexivity.
Qed.
Print Assumptions c67_call_on_receiver.

(** The definition needs the allocation templates exactly if it allocates or frees. *)
Theorem c67_allocators_included : forall m cf avoid d rd force def,
  generate_cpp_function_inner m cf avoid d rd force = COk def ->
  (d_allocators def = true <-> exists q, cf_payload cf = CbAlloc q \/ cf_payload cf = CbFree q).
Proof.
  intros m cf avoid d rd force def H. unfold generate_cpp_function_inner in H.
  destruct (cmap _ _) as [params| |] eqn:E1 in H; try discriminate. cbn [cbind] in H.
  destruct (return_type _ _ _ _) as [rt| |] eqn:ER in H; try discriminate. cbn [cbind] in H.
  destruct (cmap (fun ip => arg_expr _ _ _ _) _) as [exprs| |] eqn:E2 in H; try discriminate. cbn [cbind] in H.
  destruct (underlying_call _ _ _ _) as [[call al]| |] eqn:UC in H; try discriminate. cbn [cbind] in H.
  destruct (finish _ _ _ _ _) as [body| |] eqn:EF in H; try discriminate. injection H as <-. cbn [d_allocators].
  split.
  - intros ->. destruct (cf_payload cf); cbn [underlying_call] in UC;
      try (match type of UC with match ?x with _ => _ end = _ => destruct x end); try discriminate; eauto.
  - intros (q & [E|E]); rewrite E in UC; injection UC as _ <-; reflexivity.
Qed.
Print Assumptions c67_allocators_included.

(** The constructor of a subclass keeps the holder, its first parameter, and hands every other parameter once
    and in order to the constructor of the superclass; its body is empty. *)
Theorem c67_superclass_arguments : forall m cf avoid d rd force def s,
  generate_cpp_function_inner m cf avoid d rd force = COk def ->
  cf_kind cf = CkSynthesizedConstructor -> cf_payload cf = CbConstructSuperclass s ->
  cf_pass_obs cf = false -> cf_ret cf = None -> d <> RustCallsCpp ->
  exists args, d_super def = Some (s, args)
    /\ flat_map vars args = map (fun i => "arg" +++ dec i) (seq 1 (List.length (cf_args cf) - 1))
    /\ map snd (d_params def) = map (fun i => "arg" +++ dec i) (seq 0 (List.length (cf_args cf)))
    /\ d_body def = SNone.
Proof.
  intros m cf avoid d rd force def s H K PL OB RT DD. unfold generate_cpp_function_inner in H.
  assert (ME : is_a_method avoid (cf_kind cf) = false) by (rewrite K; destruct avoid; reflexivity).
  rewrite ME, OB, PL, RT, enumerate_combine in H. clear ME.
  destruct (cmap _ _) as [params| |] eqn:E1 in H; try discriminate. cbn [cbind] in H.
  destruct (return_type _ _ _ _) as [rt| |] eqn:ER in H; try discriminate. cbn [cbind] in H.
  destruct (cmap (fun ip => arg_expr _ _ _ _) _) as [exprs| |] eqn:E2 in H; try discriminate. cbn [cbind] in H.
  cbn [underlying_call cbind] in H. unfold finish in H. cbn [show String.eqb cbind] in H. injection H as <-. cbn [d_super d_params d_body].
  apply exprs_vars in E2. eexists. split; [reflexivity|]. split; [|split; [|reflexivity]].
  - rewrite flat_map_concat, <- (tl_map vars), E2. unfold passed_on.
    assert (F : forall (ps : list policy) i, map (fun ip => get_arg_name false (fst ip))
        (filter (fun ip => match d with RustCallsCpp => negb (is_placement_parameter (snd ip)) | _ => true end) (combine (seq i (List.length ps)) ps))
        = map (fun i => "arg" +++ dec i) (seq i (List.length ps))).
    { induction ps as [|p ps IH]; intros i; [reflexivity|]. cbn [List.length seq combine filter].
      replace (match d with RustCallsCpp => _ | _ => true end) with true by (destruct d; congruence).
      cbn [map fst]. rewrite IH. reflexivity. }
    rewrite F. clear. destruct (cf_args cf) as [|p ps]; [reflexivity|]. cbn [List.length seq map tl]. rewrite Nat.sub_0_r || rewrite Nat.sub_succ, Nat.sub_0_r.
    apply concat_single.
  - clear - E1. revert params E1. generalize 0 as i. induction (cf_args cf) as [|p ps IH]; intros i params E.
    + injection E as <-. reflexivity.
    + cbn [List.length seq combine cmap fst snd] in E. destruct (param_type m d p); try discriminate. cbn [cbind] in E.
      match type of E with cbind ?x _ = _ => destruct x as [ps'| |] eqn:E2; try discriminate end. injection E as <-.
      cbn [List.length seq map snd]. f_equal. exact (IH (S i) ps' E2).
Qed.
Print Assumptions c67_superclass_arguments.
Example c67_more_cases :
  let p := Policy (TPath [] "i32" []) CcNone RcNone in
  let c := CppFn (CbConstructSuperclass "Sup") "SubCpp" "SubCpp" None [p; p; p] CkSynthesizedConstructor false None in
  let f := CppFn (CbFunctionCall [] "f") "f_wrapper" "f" None [Policy (TRef false None (TPath [] "A" [])) CcNone RcNone; p] CkConstMethod false None in
  let a := CppFn (CbAlloc (QN [] "A")) "A_alloc" "A_alloc" None [] CkFunction false None in
  (exists def, constructor_of [] c = COk def /\ show_super def = ": Sup(arg1, arg2), obs(std::move(arg0))")
  /\ (exists def, generate_cpp_function [] f = COk def /\ show_stmt (d_body def) = "autocxx_gen_this.f(arg1);")
  /\ (exists def, generate_cpp_function [] a = COk def /\ d_allocators def = true).
Proof. cbn zeta. repeat split; eexists; (split; [vm_compute; reflexivity|]); vm_compute; reflexivity. Qed.

(** * Objects which can only be moved *)
Definition no_class (c : cty) : Prop := False.
Definition class_cty : cty := CBase "A" [].
Lemma reads_A : reads false "A" class_cty.
Proof. apply rd_name. repeat split; discriminate. Qed.
Lemma spelled_A : spelled [] (TPath [] "A" []) class_cty.
Proof.
  split.
  - exact (dn_path [] [] "A" [] (QN [] "A") [] (ref_plain [] "A" [] ltac:(discriminate) ltac:(discriminate)) ltac:(vm_compute; discriminate) (Forall2_nil _)).
  - constructor; [repeat split; discriminate | constructor].
Qed.

(** The overriding method copies the parameter even if the class can only be moved: then the C++
    written does not compile. *)
Theorem c49_move_only_refuted : exists d,
  let p := Policy (TPath [] "A" []) CcFromUniquePtrToValue RcNone in
  let an := FA "f" "f" None RnNone [] FFunction None
              [Arg p "this" None false false [] UNone false; Arg p "x" None false false [] UNone false] None UNone None [] None true false in
  override_of [] (subclass_cpp_impl (QN [] "SubCpp") "Sub_f" "f" false an) = COk d
  /\ fst (show_def d) = "void f(A arg0);"
  /\ snd (show_def d) = Some "void SubCpp::f(A arg0)  { Sub_f(*obs, std::make_unique<A>(arg0)); }"
  /\ forall (callee : string -> option (bool * cty) -> list pty -> option pty -> Prop) holder, (forall o ps r, callee "Sub_f" o ps r -> ps = [PLRef true holder; PObj (unique_of class_cty)]) ->
       ~ well_typed no_class (fun _ => True) callee [("obs", box_of holder)] d [class_cty] None.
Proof.
  eexists. split; [vm_compute; reflexivity|]. split; [vm_compute; reflexivity|]. split; [vm_compute; reflexivity|].
  intros callee holder CA W. destruct W as (_ & _ & _ & R). cbn [d_body d_params combine map snd app option_map] in R.
  inversion R as [| ? ? ps C PS| | |]; subst. specialize (CA _ _ _ C). subst ps.
  inversion PS as [|? ? ? ? _ PS2]; subst. inversion PS2 as [|? ? ? ? (v & TV & IV) _]; subst.
  inversion TV as [| | | | | |t c e w RD TE IE| |]; subst.
  assert (OT : w = Lv false class_cty).
  { inversion TE as [v0 c0 IN NR|v0 k0 c0 IN| | | | | | |]; subst.
    - destruct IN as [E|[E|[]]]; [injection E as E; subst; reflexivity | discriminate].
    - destruct IN as [E|[E|[]]]; discriminate. }
  subst w. inversion IE as [| | |k0 c0 CC| | | | |]; subst. destruct CC as [(k1 & d1 & E)|[]]. discriminate.
Qed.
(** So does the call of the superclass's method. *)
Theorem c49_super_move_only_refuted : exists d,
  let p := Policy (TPath [] "A" []) CcFromUniquePtrToValue RcNone in
  super_call_of [] (QN [] "Base") "f_super" (CppFn (CbFunctionCall [] "Sub_f") "f" "f" None [p] CkMethod true (Some (QN [] "SubCpp"))) = COk d
  /\ fst (show_def d) = "inline void f_super(A arg0)  { Base::f(arg0); }"
  /\ forall (callee : string -> option (bool * cty) -> list pty -> option pty -> Prop), (forall o ps r, callee "Base::f" o ps r -> ps = [PObj class_cty]) ->
       ~ well_typed no_class (fun _ => True) callee [] d [class_cty] None.
Proof.
  eexists. split; [vm_compute; reflexivity|]. split; [vm_compute; reflexivity|].
  intros callee CA W. destruct W as (_ & _ & _ & R). cbn [d_body d_params combine map snd app option_map] in R.
  inversion R as [| ? ? ps C PS| | |]; subst. specialize (CA _ _ _ C). subst ps.
  inversion PS as [|? ? ? ? (w & TE & IE) _]; subst.
  assert (OT : w = Lv false class_cty).
  { inversion TE as [v0 c0 IN NR|v0 k0 c0 IN| | | | | | |]; subst.
    - destruct IN as [E|[]]. injection E as E; subst; reflexivity.
    - destruct IN as [E|[]]; discriminate. }
  subst w. inversion IE as [| | |k0 c0 CC| | | | |]; subst. destruct CC as [(k1 & d1 & E)|[]]. discriminate.
Qed.

(** * Cases *)

(** A method of [A] taking an [A] by value and returning one, which Rust wants put in a place. *)
Example c67_case :
  let A := TPath [] "A" [] in
  let cf := CppFn (CbFunctionCall [] "take") "take_autocxx_wrapper" "take"
              (Some (Policy A CcFromReturnValueToPlacementPtr RcNone))
              [Policy (TRef false None A) CcNone RcNone; Policy A CcFromPtrToValue RcFromValueParamToPtr;
               Policy (TPtr true A) CcIgnoredPlacementPtrParameter RcFromPlacementParamToNewReturn] CkMethod false None in
  let cPs := [(CRef true class_cty, Some (PLRef true class_cty)); (CPtr false class_cty, Some (PObj class_cty));
              (CPtr false class_cty, None)] in
  let callee := fun f o ps r => f = "take" /\ o = Some (true, class_cty) /\ ps = [PObj class_cty] /\ r = Some (PObj class_cty) in
  Forall2 (wanted (fun _ => True) (fun _ => True) []) (cf_args cf) cPs
  /\ targets callee [] cf (somes (map snd cPs)) (Some (PObj class_cty))
  /\ delivers [] cf cPs (Some (PObj class_cty)) None
  /\ exists d, generate_cpp_function [] cf = COk d
     /\ fst (show_def d) = "inline void take_autocxx_wrapper(const A& autocxx_gen_this, A* arg1, A* arg2)  { new(arg2) A(autocxx_gen_this.take(std::move(*arg1))); }".
Proof.
  cbv zeta. pose proof spelled_A as [D W].
  assert (SP : forall mu, spelled [] (TPtr mu (TPath [] "A" [])) (CPtr (negb mu) class_cty)).
  { intros mu. split; [constructor; exact D | constructor; [exact W | unfold class_cty; eauto]]. }
  assert (SR : spelled [] (TRef false None (TPath [] "A" [])) (CRef true class_cty)).
  { split; [apply (dn_ref [] false); [discriminate | exact D] | constructor; [exact W | unfold class_cty; eauto]]. }
  split; [|split; [|split]].
  - constructor; [|constructor; [|constructor; [|constructor]]].
    + refine (su_none _ _ _ _ (CRef true class_cty) _ SR _). intros d ED. discriminate ED.
    + apply su_ptr; [exact spelled_A | right; exact I].
    + exists (TPath [] "A" []), class_cty, RcFromPlacementParamToNewReturn. split; [reflexivity|]. split; [reflexivity | exact (SP true)].
  - eapply ta_method; [reflexivity | reflexivity | cbv beta; auto].
  - eapply dl_place; [reflexivity | exact spelled_A | eexists; right; right; left; reflexivity |].
    intros c' [E|[E|[E|[]]]]; try discriminate E. injection E as <-. reflexivity.
  - eexists. split; vm_compute; reflexivity.
Qed.

(** A virtual method taking an [A] by value and a reference to one, and returning an [A]. *)
Example c49_case :
  let A := TPath [] "A" [] in
  let pa := Policy A CcFromUniquePtrToValue RcNone in
  let pr := Policy (TRef false None A) CcNone RcNone in
  let det p n := Arg p n None false false [] UNone false in
  let an := FA "f" "f" None RnNone [] FFunction None [det pr "this"; det pa "x"; det pr "y"] (Some (Policy A CcFromValueToUniquePtr RcNone))
              UNone None [] None true false in
  Forall2 (fun a Pc => overrides (fun _ => True) [] (a_conv a) (fst Pc) (snd Pc)) (tl (fa_details an))
    (combine [PObj class_cty; PLRef true class_cty] [unique_of class_cty; CRef true class_cty])
  /\ gives_back (fun _ => True) (fun _ => True) [] (Policy A CcFromValueToUniquePtr RcNone) (unique_of class_cty) (PObj class_cty)
  /\ exists d, override_of [] (subclass_cpp_impl (QN [] "SubCpp") "Sub_f" "f" true an) = COk d
     /\ snd (show_def d) = Some "A SubCpp::f(A arg0, const A& arg1) const  { return std::move(*Sub_f(*obs, std::make_unique<A>(arg0), arg1)); }".
Proof.
  cbv zeta. pose proof spelled_A as [D W].
  assert (SR : spelled [] (TRef false None (TPath [] "A" [])) (CRef true class_cty)).
  { split; [apply (dn_ref [] false); [discriminate | exact D] | constructor; [exact W | unfold class_cty; eauto]]. }
  split; [|split].
  - constructor; [|constructor; [|constructor]].
    + apply ov_value; [exact spelled_A | discriminate | right; exact I].
    + refine (ov_none _ _ _ (CRef true class_cty) _ SR _). intros d ED. discriminate ED.
  - apply gb_value; [exact spelled_A | discriminate | left; right; exact I].
  - eexists. split; vm_compute; reflexivity.
Qed.

Print Assumptions c67_wrapper_typed.
Print Assumptions c49_override_typed.
Print Assumptions c49_rust_sees_what_cpp_passes.
Print Assumptions c49_super_typed.
Print Assumptions c49_inverse.
Print Assumptions c49_reference_refuted.
Print Assumptions c49_rvalue_refuted.
Print Assumptions c49_move_panics_refuted.
Print Assumptions c49_unique_ptr_moved.
Print Assumptions c67_arguments_in_order.
Print Assumptions c49_move_only_refuted.
Print Assumptions c49_super_move_only_refuted.
