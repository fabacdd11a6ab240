(** C24, C25, C26: which functions are offered to Rust, and when they are unsafe to call. *)
From Verif Require Import Base ApiModel TypesModel NameCheckModel KnownTypesModel TypeConverterModel TypeConverterProofs TypeConverterProps
  SynthNamesModel ConversionModel UnqualifyModel FnAnalysisModel FnCodegenModel FnAnalysisProofs.

(** * C24 *)

(** A type the converter refuses whatever was converted before. *)
Definition refused (env : fn_env) (ns : list string) (t : ty) : Prop :=
  forall cs, exists cs' e, convert_type (fe_fuel env) (fe_tc env) ns cs OuterType t = (cs', OErr e).

(** The reasons why a C++ function cannot be called from Rust. *)
Inductive unsupported (env : fn_env) (ns : list string) (fn : func) (kind : fn_kind) : Prop :=
| un_private : f_vis fn = VisPrivate -> unsupported env ns fn kind
| un_protected : f_vis fn = VisProtected -> unsupported env ns fn kind
| un_deleted : f_deleted fn = Some ExDeleted -> unsupported env ns fn kind
| un_variadic : f_variadic fn = true -> unsupported env ns fn kind
| un_assignment : f_special fn = Some SmAssign -> unsupported env ns fn kind
| un_rvalue_return m e more :
    f_output fn = Some (TPath [] "__bindgen_marker_RValueReference" (TPtr m e :: more)) -> unsupported env ns fn kind
| un_return t : f_output fn = Some t -> refused env ns t -> unsupported env ns fn kind
| un_param_type n t : In (n, t) (f_inputs fn) -> n <> "this" -> refused env ns t -> unsupported env ns fn kind
| un_param_name n t e : In (n, t) (f_inputs fn) -> n <> "this" ->
    validate_ident_ok_for_cxx (tc_lexes (fe_tc env)) (tc_reserved (fe_tc env)) n = VErr e -> unsupported env ns fn kind
| un_this t : In ("this", t) (f_inputs fn) -> (forall m l i a, t <> TPtr m (TPath l i a)) -> unsupported env ns fn kind
| un_receiver mk q : kind = FMethod mk q -> mk <> MStatic -> is_known_type q = true -> unsupported env ns fn kind
| un_not_allowed mk q : kind = FMethod mk q -> fe_allow env (to_cpp_name q) = false -> unsupported env ns fn kind
| un_generic q : (exists mk, kind = FMethod mk q) \/ (exists tk, kind = FTraitMethod tk q) -> In q (fe_generic env) ->
    unsupported env ns fn kind
| un_anonymous q : (exists mk, kind = FMethod mk q) \/ (exists tk, kind = FTraitMethod tk q) -> In q (fe_anonymous env) ->
    unsupported env ns fn kind.

Lemma set_if_mono ig b s : ig <> None -> set_if ig b s <> None.
Proof. unfold set_if. destruct b; congruence. Qed.
Lemma check_references_mono r ds ig : ig <> None -> check_references r ds ig <> None.
Proof. intros H. unfold check_references. destruct (r_ref r), (r_mutref r); auto using set_if_mono. Qed.

Lemma set_if_none ig b s : set_if ig b s = None <-> ig = None /\ b = false.
Proof. unfold set_if. destruct b; split; intros; try discriminate; destruct H; split || idtac; auto; discriminate. Qed.
Lemma qmem_false q l : qmem q l = false <-> ~ In q l.
Proof.
  destruct (qmem q l) eqn:E; split; intros X; try congruence.
  - apply qmem_In in E. contradiction.
  - intros I. apply qmem_In in I. congruence.
Qed.
Definition kind_ok (env : fn_env) (kind : fn_kind) : Prop :=
  (forall q, (exists mk, kind = FMethod mk q) \/ (exists tk, kind = FTraitMethod tk q) ->
     ~ In q (fe_generic env) /\ ~ In q (fe_anonymous env)) /\
  (forall mk q, kind = FMethod mk q -> (mk = MStatic \/ is_known_type q = false) /\ fe_allow env (to_cpp_name q) = true).
Lemma check_kind_none env kind ig :
  (let on_type q := set_if (set_if ig (qmem q (fe_generic env)) "MethodOfGenericType")
                           (qmem q (fe_anonymous env)) "MethodInAnonymousNamespace" in
        match kind with
        | FMethod mk q =>
            if (match mk with MStatic => false | _ => true end) && negb (is_cxx_acceptable_receiver q) then Some (EOther "UnsupportedReceiver")
            else if negb (fe_allow env (to_cpp_name q)) then Some (EOther "MethodOfNonAllowlistedType")
            else on_type q
        | FTraitMethod _ q => on_type q
        | FFunction => ig
        end = None) <-> ig = None /\ kind_ok env kind.
Proof.
  cbv zeta. unfold kind_ok. destruct kind as [|mk q|tk q].
  - split; [|tauto]. intros ->. split; [reflexivity|]. split; [intros q [(mk & E)|(tk & E)]; discriminate|intros mk q E; discriminate].
  - assert (ST : (match mk with MStatic => false | _ => true end) = false <-> mk = MStatic) by (destruct mk; split; congruence).
    unfold is_cxx_acceptable_receiver. rewrite negb_involutive.
    destruct ((match mk with MStatic => false | _ => true end) && is_known_type q) eqn:R.
    { split; [discriminate|]. intros (_ & _ & G). destruct (G _ _ eq_refl) as [[X|X] _].
      - apply ST in X. rewrite X in R. discriminate.
      - rewrite X, andb_false_r in R. discriminate. }
    destruct (fe_allow env (to_cpp_name q)) eqn:AL; cbn [negb].
    2: { split; [discriminate|]. intros (_ & _ & G). destruct (G _ _ eq_refl) as [_ X]. congruence. }
    rewrite !set_if_none, !qmem_false. split.
    + intros ((I & G) & A). split; [exact I|]. split.
      * intros q' [(mk' & E)|(tk & E)]; [|discriminate]. injection E as <- <-. auto.
      * intros mk' q' E. injection E as <- <-. split; [|exact AL]. apply andb_false_iff in R as [R|R]; [left; apply ST; exact R|auto].
    + intros (I & G & _). destruct (G q) as [X Y]; [left; eauto|]. auto.
  - rewrite !set_if_none, !qmem_false. split.
    + intros ((I & G) & A). split; [exact I|]. split.
      * intros q' [(mk' & E)|(tk' & E)]; [discriminate|]. injection E as <- <-. auto.
      * intros mk' q' E. discriminate.
    + intros (I & G & _). destruct (G q) as [X Y]; [right; eauto|]. auto.
Qed.
Lemma check_unsupported_none env fn kind bads ig : check_unsupported env fn kind bads ig = None <->
  bads = [] /\ f_special fn <> Some SmAssign /\ return_type_is_rvalue (f_output fn) = false /\
  f_deleted fn <> Some ExDeleted /\ ig = None /\ f_vis fn <> VisPrivate /\ f_variadic fn = false /\ kind_ok env kind.
Proof.
  unfold check_unsupported. destruct bads as [|e l]; [|split; [discriminate|intros (E & _); discriminate]].
  assert (A : (match f_special fn with Some SmAssign => true | _ => false end) = false <-> f_special fn <> Some SmAssign)
    by (destruct (f_special fn) as [[]|]; split; congruence).
  destruct (match f_special fn with Some SmAssign => true | _ => false end).
  { split; [discriminate|]. intros (_ & X & _). apply A in X. discriminate. }
  destruct (return_type_is_rvalue (f_output fn)); [split; [discriminate|intros (_ & _ & E & _); discriminate]|].
  assert (D : (match f_deleted fn with Some ExDeleted => true | _ => false end) = false <-> f_deleted fn <> Some ExDeleted)
    by (destruct (f_deleted fn) as [[]|]; split; congruence).
  destruct (match f_deleted fn with Some ExDeleted => true | _ => false end).
  { split; [discriminate|]. intros (_ & _ & _ & X & _). apply D in X. discriminate. }
  assert (V : (match f_vis fn with VisPrivate => true | _ => false end) = false <-> f_vis fn <> VisPrivate)
    by (destruct (f_vis fn); split; congruence).
  pose proof (check_kind_none env kind (set_if (set_if ig (match f_vis fn with VisPrivate => true | _ => false end) "PrivateMethod")
                (f_variadic fn) "Variadic")) as C. cbv zeta in C. cbv zeta. rewrite C, !set_if_none, V. clear C. tauto.
Qed.

Lemma refused_arg env ns vt n t : n <> "this" -> refused env ns t -> forall mv force soph ctor st st' p,
  convert_fn_arg env ns vt true mv force soph ctor n t st <> (st', OOk p).
Proof.
  intros N R mv force soph ctor st st' p C. apply convert_fn_arg_ok in C as (an & t' & A).
  destruct (as_other _ _ _ _ _ _ _ _ _ _ _ _ A N) as (-> & _). destruct (as_conv _ _ _ _ _ _ _ _ _ _ _ _ A) as (cs & cs' & CV).
  destruct (R cs) as (cs2 & e & E). congruence.
Qed.

(** No other property of a function, and nothing analysed before it, makes an unsupported function
    callable: nothing at all is generated for it. *)
Theorem c24_never_callable : forall env name fn soph pre st st' fa nm np,
  analyze_foreign_fn env name fn soph pre st = (st', OOk (fa, nm)) ->
  unsupported env (qn_ns (an_name name)) fn (fa_kind fa) -> gen_function np fa = Some nothing.
Proof.
  intros env name fn soph pre st st' fa nm np H U. apply analyze_ok in H as (_ & ps0 & bads & ig0 & ps1 & r & ig2 & b0 & kw & PC).
  assert (MAIN : fa_ignore fa <> None \/ fa_external fa = false).
  2: { unfold gen_function. destruct MAIN as [M|M]; [destruct (fa_ignore fa); [reflexivity|congruence]|].
       rewrite M. cbn. rewrite orb_true_r. reflexivity. }
  assert (IG : ig2 <> None -> fa_ignore fa <> None).
  { intros N E. apply (pc_ignore _ _ _ _ _ _ _ _ _ _ _ _ _ _ PC) in E as [E _]. eapply check_references_mono; eauto. }
  destruct (pc_return _ _ _ _ _ _ _ _ _ _ _ _ _ _ PC) as (s1 & s2 & [[CR EIG]|(e & _ & _ & ->)]); [|left; apply IG; discriminate].
  destruct (pc_params _ _ _ _ _ _ _ _ _ _ _ _ _ _ PC) as (s3 & s4 & CP). apply convert_params_ok in CP as (_ & CP & _).
  assert (BAD : bads <> [] -> fa_ignore fa <> None).
  { intros B. apply IG. rewrite EIG. unfold check_unsupported. destruct bads; congruence. }
  assert (ONB : forall n t, In (n, t) (f_inputs fn) ->
     (forall s s' p, convert_fn_arg env (qn_ns (an_name name)) (f_this fn) true false None soph false n t s <> (s', OOk p)) -> fa_ignore fa <> None).
  { intros n t I N. apply BAD. destruct (CP n t I) as [(p & s5 & s6 & _ & C)|(e & s5 & s6 & I' & _)]; [destruct (N _ _ _ C)|].
    intros ->. contradiction. }
  assert (CU : forall P : Prop, (check_unsupported env fn (fa_kind fa) bads ig0 = None -> False) -> fa_ignore fa <> None).
  { intros _ N. apply IG. rewrite EIG. exact N. }
  destruct U as [V|V|V|V|V|m e more V|t V R|n t I N R|n t e I N V|t I N|mk q K S Q|mk q K Q|q K I|q K I].
  - left. apply (CU True). intros E. apply check_unsupported_none in E. tauto.
  - right. rewrite (pc_external _ _ _ _ _ _ _ _ _ _ _ _ _ _ PC), V. reflexivity.
  - left. apply (CU True). intros E. apply check_unsupported_none in E. tauto.
  - left. apply (CU True). intros E. apply check_unsupported_none in E as (_ & _ & _ & _ & _ & _ & E & _). congruence.
  - left. apply (CU True). intros E. apply check_unsupported_none in E. tauto.
  - left. apply (CU True). intros E. apply check_unsupported_none in E as (_ & _ & E & _). rewrite V in E. discriminate.
  - exfalso. rewrite V in CR. apply convert_return_type_ok in CR as (an & s5 & CB & _). apply convert_boxed_ok in CB as (cs' & CB).
    destruct (R (fs_concretes s1)) as (cs2 & e & E). congruence.
  - left. apply (ONB n t I). intros s s' p. apply refused_arg; auto.
  - left. apply (ONB n t I). intros s s' p C. apply convert_fn_arg_ok in C as (an & t' & A).
    destruct (as_other _ _ _ _ _ _ _ _ _ _ _ _ A N) as (_ & V' & _). unfold validate in V'. congruence.
  - left. apply (ONB "this" t I). intros s s' p C. unfold convert_fn_arg in C. apply bind_ok in C as (s5 & [[n' t'] self] & C & _).
    cbn in C. apply bind_ok in C as (s6 & x & C & _). unfold this_details in C.
    destruct t as [| |m [lead id args| | | | |] | | |]; try discriminate. destruct (N m lead id args eq_refl).
  - left. apply (CU True). intros E. apply check_unsupported_none in E as (_ & _ & _ & _ & _ & _ & _ & _ & E).
    destruct (E mk q K) as [[X|X] _]; congruence.
  - left. apply (CU True). intros E. apply check_unsupported_none in E as (_ & _ & _ & _ & _ & _ & _ & _ & E).
    destruct (E mk q K) as [_ X]; congruence.
  - left. apply (CU True). intros E. apply check_unsupported_none in E as (_ & _ & _ & _ & _ & _ & _ & E & _).
    destruct (E q K) as [X _]; auto.
  - left. apply (CU True). intros E. apply check_unsupported_none in E as (_ & _ & _ & _ & _ & _ & _ & E & _).
    destruct (E q K) as [_ X]; auto.
Qed.
Print Assumptions c24_never_callable.

(** A type the converter accepts whatever was converted before. *)
Definition accepted (env : fn_env) (ns : list string) (t : ty) : Prop :=
  forall cs, exists cs' a, convert_type (fe_fuel env) (fe_tc env) ns cs OuterType t = (cs', OOk a).

(** And a free function without any of these faults is not rejected. (Functions with a result are in
    [c26_one_origin_kept].) *)
Theorem c24_supported_kept : forall env name fn soph pre st st' fa nm,
  analyze_foreign_fn env name fn soph pre st = (st', OOk (fa, nm)) ->
  fa_kind fa = FFunction -> f_vis fn = VisPublic -> f_deleted fn <> Some ExDeleted -> f_variadic fn = false ->
  f_special fn <> Some SmAssign -> f_output fn = None ->
  (forall n t, In (n, t) (f_inputs fn) -> n <> "this" /\ accepted env (qn_ns (an_name name)) t /\
     validate_ident_ok_for_cxx (tc_lexes (fe_tc env)) (tc_reserved (fe_tc env)) n = VOk) ->
  validate_ident_ok_for_cxx (tc_lexes (fe_tc env)) (tc_reserved (fe_tc env)) (fa_bridge fa) = VOk ->
  fa_ignore fa = None /\ fa_external fa = true.
Proof.
  intros env name fn soph pre st st' fa nm H K V D VA S O INP BR.
  apply analyze_ok in H as (_ & ps0 & bads & ig0 & ps1 & r & ig2 & b0 & kw & PC).
  split; [|rewrite (pc_external _ _ _ _ _ _ _ _ _ _ _ _ _ _ PC), V; reflexivity].
  apply (pc_ignore _ _ _ _ _ _ _ _ _ _ _ _ _ _ PC). split; [|exact BR].
  destruct (pc_return _ _ _ _ _ _ _ _ _ _ _ _ _ _ PC) as (s1 & s2 & C). rewrite O in C.
  destruct C as [(C & E)|(e & C & _)]; [|discriminate]. apply convert_return_type_ok in C. subst r. cbn.
  rewrite E. apply check_unsupported_none. rewrite O, V, K.
  refine (conj _ (conj S (conj eq_refl (conj D (conj _ (conj _ (conj VA _))))))).
  - destruct (pc_params _ _ _ _ _ _ _ _ _ _ _ _ _ _ PC) as (s3 & s4 & CP). destruct bads as [|e l]; [reflexivity|exfalso].
    destruct (convert_params_bads _ _ _ _ _ _ _ _ _ CP e (or_introl eq_refl)) as (n & t & s5 & s6 & I & F).
    destruct (INP n t I) as (N & A & VN). unfold convert_fn_arg in F.
    rewrite (proj2 (String.eqb_neq n "this") N) in F. unfold bind at 1 2 in F. unfold validate in F. rewrite VN in F. cbn [of_verdict] in F.
    unfold ret at 1 2 in F. unfold bind, convert_boxed_type in F. destruct (A (fs_concretes s5)) as (cs' & a & CT). rewrite CT in F.
    destruct (argument_conversion_details _ _ _ _ _ _ _); cbn in F; discriminate.
  - destruct (pc_receiver _ _ _ _ _ _ _ _ _ _ _ _ _ _ PC) as (s3 & s4 & F). rewrite K in F. apply ret_ok in F as [_ F]. congruence.
  - discriminate.
  - split; [intros q0 [(mk & E0)|(tk & E0)]; discriminate|intros mk q0 E0; discriminate].
Qed.
Print Assumptions c24_supported_kept.

(** * C25 *)

(** The function a user calls: the Rust wrapper, or else the function in the bridge. *)
Definition called_by_users (o : fn_output) (f : rust_fn) : Prop :=
  o_wrapper o = Some f \/ (o_wrapper o = None /\ o_bridge o = Some f).
Definition takes_pointer (f : rust_fn) : Prop := exists p m e, In p (sg_params (rf_sig f)) /\ wp_type p = RTy (TPtr m e).

Lemma gen_inv np fa o : gen_function np fa = Some o -> o = nothing \/
  exists bs, add_explicit_lifetime_if_necessary np (fa_details fa) false
            (map (fun p => WP false (fst p) (RTy (snd p))) (fa_params fa))
            (match fa_ret fa with Some t => Some (RTy t) | None => None end) (fa_ret_conv fa) = Some bs /\
    fa_ignore fa = None /\ fa_external fa = true /\
    o_bridge o = Some (RF (bridge_token (fa_unsafe fa)) (fa_bridge fa)
                              (Sig (sg_lt bs)
                                   (map (fun p => WP (wp_mut p) (wp_name p) (unqualify_rty (wp_type p))) (sg_params bs))
                                   (match sg_ret bs with Some t => Some (unqualify_rty t) | None => None end)) []) /\
    (if fa_rust_wrapper fa then exists avoid order rt sg body, common_parts np fa avoid order rt = Some (sg, body) /\
        o_wrapper o = Some (RF (wrapper_token (fa_unsafe fa)) (fa_rust fa) sg body)
     else o_wrapper o = None).
Proof.
  unfold gen_function. destruct (fa_ignore fa); [intros H; injection H as <-; auto|].
  destruct (fa_external fa); [|intros H; injection H as <-; auto]. cbn [negb orb].
  destruct (add_explicit_lifetime_if_necessary _ _ _ _ _ _) as [bs|]; [|discriminate].
  intros H. right. exists bs. split; [reflexivity|]. split; [reflexivity|]. split; [reflexivity|].
  destruct (fa_rust_wrapper fa).
  - assert (W : forall avoid order rt, match (match common_parts np fa avoid order rt with
       | Some (sg, body) => Some (Some (RF (wrapper_token (fa_unsafe fa)) (fa_rust fa) sg body))
       | None => None end) with
        | None => None
        | Some wr => Some (FO (Some (RF (bridge_token (fa_unsafe fa)) (fa_bridge fa)
                              (Sig (sg_lt bs)
                                   (map (fun p => WP (wp_mut p) (wp_name p) (unqualify_rty (wp_type p))) (sg_params bs))
                                   (match sg_ret bs with Some t => Some (unqualify_rty t) | None => None end)) [])) wr None)
        end = Some o ->
        o_bridge o = Some (RF (bridge_token (fa_unsafe fa)) (fa_bridge fa)
                              (Sig (sg_lt bs)
                                   (map (fun p => WP (wp_mut p) (wp_name p) (unqualify_rty (wp_type p))) (sg_params bs))
                                   (match sg_ret bs with Some t => Some (unqualify_rty t) | None => None end)) []) /\
        exists avoid order rt sg body, common_parts np fa avoid order rt = Some (sg, body) /\
        o_wrapper o = Some (RF (wrapper_token (fa_unsafe fa)) (fa_rust fa) sg body)).
    { intros avoid order rt E. destruct (common_parts np fa avoid order rt) as [[sg body]|] eqn:C; [|discriminate].
      injection E as <-. cbn. split; [reflexivity|]. exists avoid, order, rt, sg, body. auto. }
    destruct (fa_kind fa) as [|mk q|tk q]; [eauto| |eauto]. destruct mk; eauto.
  - injection H as <-. auto.
Qed.

Lemma unqualify_pointer t m e : unqualify_rty t = RTy (TPtr m e) -> exists e', t = RTy (TPtr m e').
Proof. destruct t as [[]|]; cbn; intros H; try discriminate. injection H as <- _. eauto. Qed.

(** In the bridge, a function with a pointer parameter is always unsafe. *)
Theorem c25_bridge_pointer_unsafe : forall env name fn soph pre st st' fa nm np o f,
  analyze_foreign_fn env name fn soph pre st = (st', OOk (fa, nm)) ->
  gen_function np fa = Some o -> o_bridge o = Some f -> takes_pointer f -> rf_unsafe f = true.
Proof.
  intros env name fn soph pre st st' fa nm np o f H G B (w & m & e & I & T).
  apply analyze_ok in H as (_ & ps0 & bads & ig0 & ps1 & r & ig2 & b0 & kw & PC).
  destruct (gen_inv _ _ _ G) as [->|(bs & AL & _ & _ & OB & _)]; [discriminate|].
  rewrite OB in B. injection B as <-. cbn in *. apply in_map_iff in I as (w0 & <- & I). cbn in T.
  apply unqualify_pointer in T as (e' & T). apply (fun I => lifetime_pointer _ _ _ _ _ _ _ _ m e' AL I T) in I.
  apply in_map_iff in I as ([n t] & <- & I). cbn in T. injection T as ->.
  assert (EX : exists p, In p (ps1 ++ match r_placement r with Some p => [p] | None => [] end) /\
     (snd (fst p) = TPtr m e' \/ converted_rust_type (a_conv (snd p)) = TPtr m e')).
  { rewrite (pc_fa_params _ _ _ _ _ _ _ _ _ _ _ _ _ _ PC), (pc_details _ _ _ _ _ _ _ _ _ _ _ _ _ _ PC) in I.
    destruct (is_some (fa_wrapper fa)).
    - rewrite map_map in I. apply in_map_iff in I as (p & E & I). injection E as _ E. eauto.
    - apply in_map_iff in I as ([[n' t'] a] & E & I). injection E as _ ->. exists ((n', TPtr m e'), a). auto. }
  destruct EX as (p & IP & TP). assert (ID : In (snd p) (fa_details fa)).
  { rewrite (pc_details _ _ _ _ _ _ _ _ _ _ _ _ _ _ PC). apply in_map. exact IP. }
  assert (U : fa_unsafe fa <> UNone).
  2: { destruct (fa_unsafe fa); [congruence|reflexivity|reflexivity]. }
  rewrite (pc_unsafe _ _ _ _ _ _ _ _ _ _ _ _ _ _ PC).
  destruct (piece_origin _ _ _ _ _ _ _ _ _ _ _ _ _ _ PC p IP) as [n0 t0 s1 s2 _ C|idx force ctor mv n0 t0 s1 s2 A _ C|t0 s1 s2 C].
  - apply convert_fn_arg_ok in C as (an & t' & A). eapply should_be_unsafe_some; eauto. eapply arg_bridge_pointer; eauto.
  - destruct mv.
    + destruct (fa_kind fa) as [|mk q|tk q]; cbn in A; [contradiction|destruct mk; try contradiction; exfalso; intuition discriminate|].
      destruct tk; try contradiction; try (exfalso; intuition discriminate). cbn. discriminate.
    + apply convert_fn_arg_ok in C as (an & t' & AS). eapply should_be_unsafe_some; eauto. eapply arg_bridge_pointer; eauto.
  - apply convert_fn_arg_ok in C as (an & t' & A). eapply should_be_unsafe_some; eauto. eapply arg_bridge_pointer; eauto.
Qed.
Print Assumptions c25_bridge_pointer_unsafe.

(** A [this] taken by reference is never seen as a pointer. *)
Lemma this_reference env ns mv force soph ctor t p an t' m e :
  arg_spec env ns true mv force soph ctor "this" t p an t' -> ann_ty an <> TPtr m e.
Proof.
  intros A E. destruct (as_this _ _ _ _ _ _ _ _ _ _ _ _ A eq_refl) as (m' & e0 & e' & _ & -> & _).
  destruct (as_conv _ _ _ _ _ _ _ _ _ _ _ _ A) as (cs & cs' & CV).
  destruct (c60_declarators_kept _ DLRef m' e' (dc_lref m' e' []) _ _ _ _ _ _ _ CV) as (f & i & _ & R & _).
  rewrite E in R. cbn in R. destruct m'; discriminate.
Qed.

(** What users call is unsafe whenever it takes a pointer. Casts and destructors are called by users
    through safe traits; they take nothing but the receiver. *)
Theorem c25_pointer_unsafe : forall env name fn soph pre st st' fa nm np o f,
  analyze_foreign_fn env name fn soph pre st = (st', OOk (fa, nm)) ->
  (forall q, fa_kind fa = FTraitMethod TCast q \/ fa_kind fa = FTraitMethod TDestructor q ->
     forall n t, In (n, t) (f_inputs fn) -> n = "this") ->
  gen_function np fa = Some o -> called_by_users o f -> takes_pointer f -> rf_unsafe f = true.
Proof.
  intros env name fn soph pre st st' fa nm np o f H ONLY G [W|[_ B]] TP.
  2: { eapply c25_bridge_pointer_unsafe; eauto. }
  destruct TP as (w & m & e & I & T).
  apply analyze_ok in H as (_ & ps0 & bads & ig0 & ps1 & r & ig2 & b0 & kw & PC).
  destruct (gen_inv _ _ _ G) as [->|(bs & _ & _ & _ & _ & OW)]; [discriminate|].
  destruct (fa_rust_wrapper fa); [|congruence].
  destruct OW as (avoid & order & rt & sg & body & CPT & OW). rewrite OW in W. injection W as <-. cbn in *.
  apply common_parts_ok in CPT as (pa & wps & sg0 & PA & SUB & AL & EP & _). rewrite EP in I.
  apply (fun I => lifetime_pointer _ _ _ _ _ _ _ _ m e AL I T) in I. apply SUB in I.
  destruct (param_parts_params _ _ _ _ PA w I) as [[]|(pd & var & k & k' & l & c & u & ID & NP & RC)].
  rewrite T in RC. apply visible_pointer in RC as [RN CT].
  assert (U : fa_unsafe fa = UAlways); [|rewrite U; reflexivity].
  rewrite (pc_unsafe _ _ _ _ _ _ _ _ _ _ _ _ _ _ PC).
  assert (IP := ID). rewrite (pc_details _ _ _ _ _ _ _ _ _ _ _ _ _ _ PC) in IP. apply in_map_iff in IP as (p & <- & IP).
  assert (KEY : forall tr force n t ctor s1 s2 vt, force <> Some RcNone -> (n = "this" -> tr = true \/ ctor = true) ->
     convert_fn_arg env (qn_ns (an_name name)) vt tr false force soph ctor n t s1 = (s2, OOk p) ->
     a_unsafe (snd p) = UAlways /\ a_self (snd p) = None).
  { intros tr force n t ctor s1 s2 vt F TH C. apply convert_fn_arg_ok in C as (an & t' & A).
    assert (K : kind_describes (ann_kind an) (ann_ty an)).
    { destruct (as_conv _ _ _ _ _ _ _ _ _ _ _ _ A) as (cs & cs' & CV). eapply c60_kind_describes_type; eauto. }
    destruct (policy_pointer _ _ _ _ _ _ _ _ _ K (as_policy _ _ _ _ _ _ _ _ _ _ _ _ A) F RN CT) as (-> & KP & m' & e' & TA).
    split.
    - rewrite (as_unsafe _ _ _ _ _ _ _ _ _ _ _ _ A), KP, NP. reflexivity.
    - destruct (a_self (snd p)) as [sq|] eqn:S; [exfalso|reflexivity].
      assert (N : n = "this") by (apply (as_self _ _ _ _ _ _ _ _ _ _ _ _ A); congruence). subst n.
      destruct (TH eq_refl) as [TH1|TH1]; subst.
      + eapply this_reference; eauto.
      + rewrite (as_placement _ _ _ _ _ _ _ _ _ _ _ _ A), S in NP. discriminate. }
  destruct (piece_origin _ _ _ _ _ _ _ _ _ _ _ _ _ _ PC p IP) as [n0 t0 s1 s2 IN C|idx force ctor mv n0 t0 s1 s2 A N C|t0 s1 s2 C].
  - destruct (KEY true None n0 t0 false s1 s2 (f_this fn)) as (U & S); [discriminate|auto|exact C|].
    destruct (fa_kind fa) as [|mk q|tk q] eqn:K.
    + eapply should_be_unsafe_always; eauto; discriminate.
    + eapply should_be_unsafe_always; eauto; discriminate.
    + assert (SELF : (tk = TCast \/ tk = TDestructor) -> False).
      { intros D. apply convert_fn_arg_ok in C as (an & t' & A). apply (as_self _ _ _ _ _ _ _ _ _ _ _ _ A); [|exact S].
        apply (ONLY q) with (t := t0); [|exact IN]. destruct D as [-> | ->]; auto. }
      destruct tk; cbn; try reflexivity; exfalso; apply SELF; auto.
  - destruct (fa_kind fa) as [|mk q|tk q] eqn:K; cbn in A; [contradiction| |].
    + destruct mk; try contradiction. destruct A as (-> & -> & -> & ->).
      destruct (KEY false None n0 t0 true s1 s2 (f_this fn)) as (U & S); [discriminate|auto|exact C|].
      eapply should_be_unsafe_always; eauto; discriminate.
    + destruct tk; try contradiction; try reflexivity. destruct A as (-> & -> & -> & ->). exfalso.
      apply convert_fn_arg_ok in C as (an & t' & A).
      assert (KD : kind_describes (ann_kind an) (ann_ty an)).
      { destruct (as_conv _ _ _ _ _ _ _ _ _ _ _ _ A) as (cs & cs' & CV). eapply c60_kind_describes_type; eauto. }
      destruct (policy_pointer _ _ _ _ _ _ _ m e KD (as_policy _ _ _ _ _ _ _ _ _ _ _ _ A)) as (X & _); auto; discriminate.
  - exfalso. apply convert_fn_arg_ok in C as (an & t' & A).
    rewrite (as_placement _ _ _ _ _ _ _ _ _ _ _ _ A), orb_true_r in NP. discriminate.
Qed.
Print Assumptions c25_pointer_unsafe.

(** Under the default policy everything users call is unsafe, except through traits. *)
Theorem c25_default_policy_unsafe : forall env name fn soph pre st st' fa nm np o f,
  analyze_foreign_fn env name fn soph pre st = (st', OOk (fa, nm)) -> fe_policy env = AllFunctionsUnsafe ->
  (forall tk q, fa_kind fa <> FTraitMethod tk q) ->
  gen_function np fa = Some o -> called_by_users o f -> rf_unsafe f = true.
Proof.
  intros env name fn soph pre st st' fa nm np o f H POL NT G C.
  apply analyze_ok in H as (_ & ps0 & bads & ig0 & ps1 & r & ig2 & b0 & kw & PC).
  assert (U : fa_unsafe fa = UAlways).
  { rewrite (pc_unsafe _ _ _ _ _ _ _ _ _ _ _ _ _ _ PC). unfold should_be_unsafe. rewrite POL.
    destruct (fa_kind fa) as [|mk q|tk q]; [reflexivity|reflexivity|destruct (NT tk q eq_refl)]. }
  destruct (gen_inv _ _ _ G) as [->|(bs & _ & _ & _ & OB & OW)].
  - destruct C as [C|[_ C]]; discriminate.
  - destruct C as [C|[_ C]].
    + destruct (fa_rust_wrapper fa); [|congruence]. destruct OW as (avoid & order & rt & sg & body & _ & OW).
      rewrite OW in C. injection C as <-. cbn. rewrite U. reflexivity.
    + rewrite OB in C. injection C as <-. cbn. rewrite U. reflexivity.
Qed.
Print Assumptions c25_default_policy_unsafe.

(** * C26 *)

(** An input which is a C++ lvalue reference, or the receiver; [m] says whether it is mutable. *)
Definition borrows (i : string * ty) (m : bool) : Prop :=
  (fst i = "this" /\ exists e, snd i = TPtr m e) \/ (fst i <> "this" /\ exists e, declared (snd i) DLRef m e).
(** A Rust type which borrows. *)
Definition rust_borrow (t : ty) (m : bool) : Prop :=
  (m = false /\ exists m' lt e, t = TRef m' lt e) \/ (m = true /\ exists e, t = TPath ["core"; "pin"] "Pin" [TRef true None e]).
(** An input which borrows on the Rust side. *)
Definition origin_of_borrow (env : fn_env) (ns : list string) (i : string * ty) (m : bool) : Prop :=
  (fst i = "this" /\ exists e, snd i = TPtr m e) \/
  (fst i <> "this" /\ exists cs cs' an, convert_type (fe_fuel env) (fe_tc env) ns cs OuterType (snd i) = (cs', OOk an) /\ rust_borrow (ann_ty an) m).
Definition special_receiver (k : fn_kind) : bool :=
  match k with
  | FMethod (MConstructor _) _ | FTraitMethod (TCopyConstructor | TMoveConstructor | TDestructor) _ => true
  | _ => false
  end.
Definition pin_name : qname := QN ["core"; "pin"] "Pin".

Lemma pin_pod_safe : forall apis, In pin_name (build_pod_safe_type_set apis).
Proof.
  intros apis. unfold build_pod_safe_type_set. apply in_or_app. right. apply qmem_In. vm_compute. reflexivity.
Qed.

Lemma filter_single {A} (f : A -> bool) : forall l, List.length (filter f l) = 1 ->
  exists pre a post, l = pre ++ a :: post /\ f a = true /\ (forall x, In x (pre ++ post) -> f x = false).
Proof.
  induction l as [|x l IH]; [discriminate|]. cbn [filter]. intros H. destruct (f x) eqn:F.
  - cbn in H. injection H as H. apply length_zero_iff_nil in H. exists [], x, l. repeat split; auto.
    intros y I. cbn in I. destruct (f y) eqn:FY; [|reflexivity]. assert (I2 : In y (filter f l)) by (apply filter_In; auto).
    rewrite H in I2. contradiction.
  - destruct (IH H) as (pre & a & post & -> & FA & R). exists (x :: pre), a, post. repeat split; auto.
    intros y [<-|I]; auto.
Qed.
Lemma Forall2_split {A B} (R : A -> B -> Prop) : forall l pre b post, Forall2 R l (pre ++ b :: post) ->
  exists pre' a post', l = pre' ++ a :: post' /\ R a b /\ Forall2 R pre' pre /\ Forall2 R post' post.
Proof.
  intros l pre b post H. apply Forall2_app_inv_r in H as (pre' & l2 & F1 & F2 & ->). inversion F2; subst.
  exists pre', x, l. auto.
Qed.
Lemma Forall2_app_In {A B} (R : A -> B -> Prop) : forall l1 l2, Forall2 R l1 l2 -> forall a, In a l1 -> exists b, In b l2 /\ R a b.
Proof.
  induction 1 as [|x y l1 l2 H F IH]; intros a I; [contradiction|]. destruct I as [<-|I]; [exists y; split; [left|]; auto|].
  destruct (IH a I) as (b & I2 & R2). exists b. split; [right; exact I2|exact R2].
Qed.

(** How an input that borrows is analysed, and the converse. *)
Lemma borrow_counted env ns vt soph i m st st' p :
  convert_fn_arg env ns vt true false None soph false (fst i) (snd i) st = (st', OOk p) -> borrows i m ->
  a_lifetime (snd p) = true /\ a_mutref (snd p) = m.
Proof.
  intros C B. apply convert_fn_arg_ok in C as (an & t' & A).
  assert (D : exists e, declared t' DLRef m e).
  { destruct B as [(N & e & T)|(N & e & T)].
    - destruct (as_this _ _ _ _ _ _ _ _ _ _ _ _ A N) as (m' & e0 & e' & T2 & -> & _). rewrite T in T2. injection T2 as -> ->.
      exists e'. constructor.
    - destruct (as_other _ _ _ _ _ _ _ _ _ _ _ _ A N) as (-> & _). eauto. }
  destruct D as (e & D). destruct (as_conv _ _ _ _ _ _ _ _ _ _ _ _ A) as (cs & cs' & CV).
  destruct (c60_declarators_kept _ _ _ _ D _ _ _ _ _ _ _ CV) as (f & x & _ & R & _).
  rewrite (as_life _ _ _ _ _ _ _ _ _ _ _ _ A), (as_mut _ _ _ _ _ _ _ _ _ _ _ _ A). cbn in R.
  destruct m; injection R as _ ->; auto.
Qed.
Lemma counted_borrow env ns vt soph i st st' p :
  convert_fn_arg env ns vt true false None soph false (fst i) (snd i) st = (st', OOk p) -> a_lifetime (snd p) = true ->
  origin_of_borrow env ns i (a_mutref (snd p)).
Proof.
  intros C L. apply convert_fn_arg_ok in C as (an & t' & A). destruct (as_conv _ _ _ _ _ _ _ _ _ _ _ _ A) as (cs & cs' & CV).
  destruct (String.eqb_spec (fst i) "this") as [N|N].
  - left. split; [exact N|]. destruct (as_this _ _ _ _ _ _ _ _ _ _ _ _ A N) as (m & e0 & e' & T2 & -> & _).
    destruct (c60_declarators_kept _ DLRef m e' (dc_lref m e' []) _ _ _ _ _ _ _ CV) as (f & x & _ & R & _).
    rewrite (as_mut _ _ _ _ _ _ _ _ _ _ _ _ A). cbn in R. destruct m; injection R as _ ->; eauto.
  - right. split; [exact N|]. destruct (as_other _ _ _ _ _ _ _ _ _ _ _ _ A N) as (-> & _). exists cs, cs', an. split; [exact CV|].
    assert (K := c60_kind_describes_type _ _ _ _ _ _ _ _ CV).
    rewrite (as_life _ _ _ _ _ _ _ _ _ _ _ _ A) in L. rewrite (as_mut _ _ _ _ _ _ _ _ _ _ _ _ A).
    destruct (ann_kind an); try discriminate; cbn in K; [left|right]; split; auto; unfold pin_mut in K; destruct K as (? & K); eauto.
Qed.

(** What the return type becomes. *)
Lemma return_reference env ns soph t m e st st' r : convert_return_type env ns soph (Some t) st = (st', OOk r) ->
  declared t DLRef m e -> In pin_name (fe_pod_safe env) -> r_ref r = true /\ r_mutref r = m /\ r_placement r = None.
Proof.
  intros C D P. apply convert_return_type_ok in C as (an & s1 & CB & C). apply convert_boxed_ok in CB as (cs' & CB).
  destruct (c60_declarators_kept _ _ _ _ D _ _ _ _ _ _ _ CB) as (f & x & _ & R & _). cbn in R.
  destruct C as [(_ & conv & -> & _)|(l & i & ar & q & T & PN & NP & _)].
  - destruct m; injection R as _ R; rewrite R; cbn; auto.
  - exfalso. destruct m; injection R as R _; rewrite R in T; [|discriminate]. injection T as <- <- <-.
    apply NP. replace q with pin_name; [exact P|]. vm_compute in PN. injection PN as <-. reflexivity.
Qed.

Theorem c26_one_origin : forall env name fn soph pre st st' fa nm t m e,
  analyze_foreign_fn env name fn soph pre st = (st', OOk (fa, nm)) -> In pin_name (fe_pod_safe env) ->
  fa_ignore fa = None -> special_receiver (fa_kind fa) = false -> f_output fn = Some t -> declared t DLRef m e ->
  exists before i after mi, f_inputs fn = before ++ i :: after /\ origin_of_borrow env (qn_ns (an_name name)) i mi /\
    (m = true -> mi = true) /\ (forall j mj, In j (before ++ after) -> ~ borrows j mj).
Proof.
  intros env name fn soph pre st st' fa nm t m e H PIN IG SR O D.
  apply analyze_ok in H as (_ & ps0 & bads & ig0 & ps1 & r & ig2 & b0 & kw & PC).
  apply (pc_ignore _ _ _ _ _ _ _ _ _ _ _ _ _ _ PC) in IG as [IG _].
  destruct (pc_return _ _ _ _ _ _ _ _ _ _ _ _ _ _ PC) as (s1 & s2 & [(C & EIG)|(e0 & _ & _ & ->)]).
  2: { exfalso. apply (check_references_mono r (fa_details fa) (Some e0)); [discriminate|exact IG]. }
  rewrite O in C. destruct (return_reference _ _ _ _ _ _ _ _ _ C D PIN) as (RR & RM & RP).
  assert (PS : ps1 = ps0).
  { destruct (pc_receiver _ _ _ _ _ _ _ _ _ _ _ _ _ _ PC) as (s3 & s4 & F). unfold fix_receiver in F.
    destruct (fa_kind fa) as [|mk q|tk q]; [| |]; try (destruct mk); try (destruct tk); try discriminate; apply ret_ok in F as [_ F]; congruence. }
  assert (DET : fa_details fa = map snd ps0).
  { rewrite (pc_details _ _ _ _ _ _ _ _ _ _ _ _ _ _ PC), RP, PS, app_nil_r. reflexivity. }
  assert (B : bads = []).
  { destruct ig2 as [x|]; [exfalso; apply (check_references_mono r (fa_details fa) (Some x)); [discriminate|exact IG]|].
    symmetry in EIG. apply check_unsupported_none in EIG. tauto. }
  destruct (pc_params _ _ _ _ _ _ _ _ _ _ _ _ _ _ PC) as (s3 & s4 & CP). apply convert_params_ok in CP as (_ & _ & CP). specialize (CP B).
  assert (ONE : List.length (filter (fun p => a_lifetime (snd p)) ps0) = 1 /\
     (m = true -> List.length (filter (fun p => a_lifetime (snd p) && a_mutref (snd p)) ps0) = 1)).
  { assert (FM : forall f, List.length (filter f (fa_details fa)) = List.length (filter (fun p => f (snd p)) ps0)).
    { intros f. rewrite DET. clear. induction ps0 as [|x l IHl]; [reflexivity|]. cbn. destruct (f (snd x)); cbn; congruence. }
    unfold check_references in IG. rewrite RR, RM, !FM in IG. cbv zeta in IG. destruct m.
    - rewrite !set_if_none in IG. destruct IG as (((( _ & A1) & A2) & A3) & A4).
      apply Nat.eqb_neq in A1, A3. apply Nat.ltb_ge in A2, A4. split; [|intros _]; lia.
    - rewrite !set_if_none in IG. destruct IG as ((_ & A1) & A2).
      apply Nat.eqb_neq in A1. apply Nat.ltb_ge in A2. split; [lia|discriminate]. }
  destruct ONE as (ONE & ONEM). apply filter_single in ONE as (pre1 & p & post1 & EP & LP & OTHER).
  rewrite EP in CP. apply Forall2_split in CP as (before & i & after & EI & (s5 & s6 & CI) & FB & FA).
  exists before, i, after, (a_mutref (snd p)). split; [exact EI|]. split; [eapply counted_borrow; eauto|]. split.
  - intros M. specialize (ONEM M). rewrite EP in ONEM.
    assert (N : forall l : list (string * ty * arg), (forall x, In x l -> a_lifetime (snd x) = false) -> filter (fun p => a_lifetime (snd p) && a_mutref (snd p)) l = []).
    { induction l as [|x l IHl]; intros X; [reflexivity|]. cbn. rewrite (X x (or_introl eq_refl)). cbn. apply IHl. intros y I. apply X. right. exact I. }
    rewrite filter_app in ONEM. cbn in ONEM. rewrite !N in ONEM; try (intros x I; apply OTHER; apply in_or_app; auto).
    rewrite LP in ONEM. cbn in ONEM. destruct (a_mutref (snd p)); [reflexivity|discriminate].
  - intros j mj I BJ. apply in_app_or in I.
    assert (X : exists q, In q (pre1 ++ post1) /\ exists s7 s8, convert_fn_arg env (qn_ns (an_name name)) (f_this fn) true false None soph false (fst j) (snd j) s7 = (s8, OOk q)).
    { destruct I as [I|I]; [destruct (Forall2_app_In _ _ _ FB j I) as (q & IQ & C7)|destruct (Forall2_app_In _ _ _ FA j I) as (q & IQ & C7)];
        exists q; split; auto; apply in_or_app; auto. }
    destruct X as (q & IQ & s7 & s8 & CQ). destruct (borrow_counted _ _ _ _ _ _ _ _ _ CQ BJ) as (L & _).
    rewrite (OTHER q IQ) in L. discriminate.
Qed.
Print Assumptions c26_one_origin.

(** Conversely a function returning a reference is kept if exactly one input borrows (mutably, if the
    result is mutable). *)
Theorem c26_one_origin_kept : forall env name fn soph pre st st' fa nm t m e before i after mi,
  analyze_foreign_fn env name fn soph pre st = (st', OOk (fa, nm)) -> In pin_name (fe_pod_safe env) ->
  fa_kind fa = FFunction -> f_vis fn = VisPublic -> f_deleted fn <> Some ExDeleted -> f_variadic fn = false ->
  f_special fn <> Some SmAssign -> f_output fn = Some t -> declared t DLRef m e -> type_is_reference t true = false ->
  accepted env (qn_ns (an_name name)) t ->
  f_inputs fn = before ++ i :: after -> borrows i mi -> (m = true -> mi = true) ->
  (forall j mj, In j (before ++ after) -> ~ origin_of_borrow env (qn_ns (an_name name)) j mj) ->
  (forall n t, In (n, t) (f_inputs fn) -> n <> "this" /\ accepted env (qn_ns (an_name name)) t /\
     validate_ident_ok_for_cxx (tc_lexes (fe_tc env)) (tc_reserved (fe_tc env)) n = VOk) ->
  validate_ident_ok_for_cxx (tc_lexes (fe_tc env)) (tc_reserved (fe_tc env)) (fa_bridge fa) = VOk ->
  fa_ignore fa = None /\ fa_external fa = true.
Proof.
  intros env name fn soph pre st st' fa nm t m e before i after mi H PIN K V DL VA S O D NRV ACC EI BI MM OTH INP BR.
  apply analyze_ok in H as (_ & ps0 & bads & ig0 & ps1 & r & ig2 & b0 & kw & PC).
  split; [|rewrite (pc_external _ _ _ _ _ _ _ _ _ _ _ _ _ _ PC), V; reflexivity].
  apply (pc_ignore _ _ _ _ _ _ _ _ _ _ _ _ _ _ PC). split; [|exact BR].
  destruct (pc_return _ _ _ _ _ _ _ _ _ _ _ _ _ _ PC) as (s1 & s2 & C). rewrite O in C.
  destruct C as [(C & E)|(e0 & C & _)].
  2: { exfalso. unfold convert_return_type in C. unfold bind at 1 in C. unfold convert_boxed_type in C.
       destruct (ACC (fs_concretes s1)) as (cs' & a & CT). rewrite CT in C.
       destruct (c60_declarators_kept _ _ _ _ D _ _ _ _ _ _ _ CT) as (f & x & _ & R & _). cbn in R.
       assert (MUT : ann_ty a = TPath ["core"; "pin"] "Pin" [TRef true None (ann_ty x)] \/ ann_ty a = TRef false None (ann_ty x)).
       { destruct m; injection R as -> _; auto. }
       destruct MUT as [M|M]; rewrite M in C.
       - unfold bind at 1 in C. change (of_option (path_name ["core"; "pin"] "Pin")) with (@ret qname pin_name) in C. unfold ret at 1 in C.
         rewrite (proj2 (qmem_In _ _) PIN) in C. unfold bind in C.
         match type of C with context [of_option ?x] => destruct x; cbn in C; discriminate end.
       - unfold bind in C. match type of C with context [of_option ?x] => destruct x; cbn in C; discriminate end. }
  destruct (return_reference _ _ _ _ _ _ _ _ _ C D PIN) as (RR & RM & RP).
  assert (BAD : bads = []).
  { destruct (pc_params _ _ _ _ _ _ _ _ _ _ _ _ _ _ PC) as (s3 & s4 & CP). destruct bads as [|e0 l]; [reflexivity|exfalso].
    destruct (convert_params_bads _ _ _ _ _ _ _ _ _ CP e0 (or_introl eq_refl)) as (n & t0 & s5 & s6 & I & F).
    destruct (INP n t0 I) as (N & A & VN). unfold convert_fn_arg in F.
    rewrite (proj2 (String.eqb_neq n "this") N) in F. unfold bind at 1 2 in F. unfold validate in F. rewrite VN in F. cbn [of_verdict] in F.
    unfold ret at 1 2 in F. unfold bind, convert_boxed_type in F. destruct (A (fs_concretes s5)) as (cs' & a & CT). rewrite CT in F.
    destruct (argument_conversion_details _ _ _ _ _ _ _); cbn in F; discriminate. }
  assert (IG : ig2 = None).
  { rewrite E. apply check_unsupported_none. rewrite O, V, K.
    refine (conj BAD (conj S (conj NRV (conj DL (conj _ (conj _ (conj VA _))))))).
    - destruct (pc_receiver _ _ _ _ _ _ _ _ _ _ _ _ _ _ PC) as (s3 & s4 & F). rewrite K in F. apply ret_ok in F as [_ F]. congruence.
    - discriminate.
    - split; [intros q0 [(mk & E0)|(tk & E0)]; discriminate|intros mk q0 E0; discriminate]. }
  assert (PS : ps1 = ps0).
  { destruct (pc_receiver _ _ _ _ _ _ _ _ _ _ _ _ _ _ PC) as (s3 & s4 & F). rewrite K in F. apply ret_ok in F as [_ F]. congruence. }
  assert (DET : fa_details fa = map snd ps0).
  { rewrite (pc_details _ _ _ _ _ _ _ _ _ _ _ _ _ _ PC), RP, PS, app_nil_r. reflexivity. }
  destruct (pc_params _ _ _ _ _ _ _ _ _ _ _ _ _ _ PC) as (s3 & s4 & CP). apply convert_params_ok in CP as (_ & _ & CP). specialize (CP BAD).
  rewrite EI in CP. apply Forall2_app_inv_l in CP as (pre1 & rest & F1 & F2 & EP). inversion F2 as [|i0 p l0 post1 (s5 & s6 & CI) F3]. subst i0 l0 rest.
  destruct (borrow_counted _ _ _ _ _ _ _ _ _ CI BI) as (L1 & L2).
  assert (NOT : forall l qs, Forall2 (fun i p => exists st1 st2, convert_fn_arg env (qn_ns (an_name name)) (f_this fn) true false None soph false (fst i) (snd i) st1 = (st2, OOk p)) l qs ->
    (forall j, In j l -> In j (before ++ after)) -> forall g, filter (fun a => a_lifetime a && g a) (map snd qs) = []).
  { intros l qs F. induction F as [|x y l qs (s7 & s8 & CX) F IHF]; intros SUB g; [reflexivity|]. cbn.
    destruct (a_lifetime (snd y)) eqn:LY.
    - exfalso. apply (OTH x (a_mutref (snd y))); [apply SUB; left; reflexivity|]. eapply counted_borrow; eauto.
    - cbn. apply IHF. intros j I. apply SUB. right. exact I. }
  assert (LEN : forall g, g (snd p) = true -> List.length (filter (fun a => a_lifetime a && g a) (fa_details fa)) = 1).
  { intros g G. rewrite DET, EP, map_app, filter_app. cbn [map filter]. rewrite L1, G. cbn.
    rewrite (NOT before pre1 F1), (NOT after post1 F3); [reflexivity| |]; intros j I; apply in_or_app; auto. }
  assert (LEN1 : List.length (filter a_lifetime (fa_details fa)) = 1).
  { rewrite <- (LEN (fun _ => true) eq_refl). f_equal. apply filter_ext. intros a. rewrite andb_true_r. reflexivity. }
  unfold check_references. rewrite RR, RM, LEN1, IG. destruct m; [|reflexivity].
  rewrite (LEN a_mutref); [reflexivity|]. rewrite L2. apply MM. reflexivity.
Qed.
Print Assumptions c26_one_origin_kept.

(** * Cases meeting the hypotheses, and refutations *)

Definition fenv (td : list (qname * ty)) (p : unsafe_policy) : fn_env :=
  FE (with_typedefs td) p false (build_pod_safe_type_set []) [] [] [] [] (fun _ => true) "hash" false (fun _ => false) 20.
Definition st0 : fn_state := FS [] [] [] [].
Definition plain_fn (n : string) (ins : list (string * ty)) (o : option ty) : func :=
  Func n ins false o None VisPublic None None None None None None.
Definition lref (m : bool) (e : ty) : ty := TPath [] "__bindgen_marker_Reference" [TPtr m e].
Definition class_A : ty := TPath ["root"] "A" [].
Definition byte : ty := TPath [] "u8" [].
Definition run (td : list (qname * ty)) (p : unsafe_policy) (f : func) : fn_state * out (fn_analysis * api_name) :=
  analyze_foreign_fn (fenv td p) (AN (QN [] (f_ident f)) None) f Regular None st0.

(** The raw pointer rule looks at the outside of the type only: [void f(uint8_t*& x)] may be called
    without unsafe under the safe policy, although the C++ code may read through the pointer inside. *)
Theorem c25_pointer_behind_reference_refuted : exists fn st' fa nm o f p l e,
  run [] AllFunctionsSafe fn = (st', OOk (fa, nm)) /\ gen_function [] fa = Some o /\ called_by_users o f /\
  In p (sg_params (rf_sig f)) /\ wp_type p = RTy (TPath l "Pin" [TRef true None (TPtr true e)]) /\ rf_unsafe f = false.
Proof.
  exists (plain_fn "f" [("x", lref true (TPtr true byte))] None). vm_compute.
  do 8 eexists. split; [reflexivity|]. split; [reflexivity|]. split; [right; split; reflexivity|].
  split; [left; reflexivity|]. split; reflexivity.
Qed.
Print Assumptions c25_pointer_behind_reference_refuted.

(** A result which is a reference by way of a typedef ([typedef const A& R; R f();]) is not seen as a
    reference: the function is offered with no origin for the borrow at all. *)
Theorem c26_typedef_reference_refuted : exists td fn st' fa nm,
  run td AllFunctionsSafe fn = (st', OOk (fa, nm)) /\ fa_ignore fa = None /\ fa_external fa = true /\
  f_inputs fn = [] /\ exists e, fa_ret fa = Some (TRef false None e).
Proof.
  exists [(QN [] "R", TRef false None (TPath ["output"] "A" []))], (plain_fn "f" [] (Some (TPath ["root"] "R" []))).
  vm_compute. do 3 eexists. repeat split. eexists. reflexivity.
Qed.
Print Assumptions c26_typedef_reference_refuted.

(** C24: a deleted function which also takes an rvalue reference to an unsupported type. *)
Example c24_never_callable_case : exists st' fa nm,
  run [] AllFunctionsSafe (Func "f" [("x", TPtr true byte)] true None None VisPrivate None None None None None (Some ExDeleted)) = (st', OOk (fa, nm)) /\
  unsupported (fenv [] AllFunctionsSafe) [] (Func "f" [("x", TPtr true byte)] true None None VisPrivate None None None None None (Some ExDeleted)) (fa_kind fa).
Proof. vm_compute. do 3 eexists. split; [reflexivity|]. apply un_deleted. reflexivity. Qed.
(** C24: an unsupported parameter type. *)
Example c24_refused_case : refused (fenv [] AllFunctionsSafe) [] (TOther "fn()").
Proof. intros cs. eexists _, _. vm_compute. reflexivity. Qed.
(** C24: a function which is kept. *)
Example c24_supported_kept_case : exists st' fa nm,
  run [] AllFunctionsSafe (plain_fn "f" [("x", class_A); ("y", TPtr true byte)] None) = (st', OOk (fa, nm)) /\
  fa_kind fa = FFunction /\ accepted (fenv [] AllFunctionsSafe) [] class_A /\ accepted (fenv [] AllFunctionsSafe) [] (TPtr true byte) /\
  validate_ident_ok_for_cxx (fun _ => true) (fun _ => false) "x" = VOk.
Proof. do 3 eexists. split; [vm_compute; reflexivity|]. split; [reflexivity|]. split; [|split; [|reflexivity]]; intros cs; eexists _, _; vm_compute; reflexivity. Qed.
(** C25: pointers with and without a wrapper. *)
Example c25_pointer_case : forall y, In y [class_A; byte] -> exists st' fa nm o f,
  run [] AllFunctionsSafe (plain_fn "f" [("x", TPtr true byte); ("y", y)] None) = (st', OOk (fa, nm)) /\
  gen_function [] fa = Some o /\ called_by_users o f /\ takes_pointer f.
Proof.
  intros y [<-|[<-|[]]]; do 5 eexists; (split; [vm_compute; reflexivity|]); (split; [vm_compute; reflexivity|]);
    unfold called_by_users, takes_pointer; cbn.
  - split; [left; reflexivity|]. eexists _, _, _. split; [left; reflexivity|reflexivity].
  - split; [right; split; reflexivity|]. eexists _, _, _. split; [left; reflexivity|reflexivity].
Qed.
(** C25: a safe function needing an unsafe bridge: the hypothesis of [c25_bridge_pointer_unsafe] is met by
    a function whose wrapper is safe. *)
Example c25_bridge_case : exists st' fa nm o b w,
  run [] AllFunctionsSafe (plain_fn "f" [("y", class_A)] None) = (st', OOk (fa, nm)) /\ gen_function [] fa = Some o /\
  o_bridge o = Some b /\ takes_pointer b /\ o_wrapper o = Some w /\ rf_unsafe w = false.
Proof.
  do 6 eexists. split; [vm_compute; reflexivity|]. split; [vm_compute; reflexivity|]. split; [reflexivity|].
  split; [eexists _, _, _; split; [left; reflexivity|reflexivity]|]. split; reflexivity.
Qed.
(** C26: [A& f(A& x, A y)] is kept, [A& f(A& x, A& y)] and [A& f(const A& x)] are not. *)
Example c26_kept_case : exists st' fa nm,
  run [] AllFunctionsSafe (plain_fn "f" [("x", lref true class_A); ("y", class_A)] (Some (lref true class_A))) = (st', OOk (fa, nm)) /\
  fa_ignore fa = None /\ special_receiver (fa_kind fa) = false /\ declared (lref true class_A) DLRef true class_A /\
  borrows ("x", lref true class_A) true /\ (forall mj, ~ origin_of_borrow (fenv [] AllFunctionsSafe) [] ("y", class_A) mj).
Proof.
  do 3 eexists. split; [vm_compute; reflexivity|]. split; [reflexivity|]. split; [reflexivity|]. split; [constructor|]. split.
  - right. split; [discriminate|]. eexists. constructor.
  - intros mj [(N & _)|(_ & cs & cs' & an & C & B)]; [discriminate|]. vm_compute in C. injection C as _ <-.
    destruct B as [(_ & m' & lt & e & B)|(_ & e & B)]; discriminate.
Qed.
Example c26_rejected_case :
  (exists st' fa nm, run [] AllFunctionsSafe (plain_fn "f" [("x", lref true class_A); ("y", lref false class_A)] (Some (lref true class_A))) = (st', OOk (fa, nm))
     /\ fa_ignore fa <> None) /\
  (exists st' fa nm, run [] AllFunctionsSafe (plain_fn "f" [("x", lref false class_A)] (Some (lref true class_A))) = (st', OOk (fa, nm)) /\ fa_ignore fa <> None).
Proof. split; do 3 eexists; (split; [vm_compute; reflexivity|discriminate]). Qed.
