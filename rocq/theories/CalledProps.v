(** C87: each generated function calls the C++ function it stands for. *)
From Coq Require Import NArith.
From Verif Require Import Base QNamesModel KnownTypesModel ApiModel ApiVecModel TypesModel TypeConverterModel ByValueModel ConversionModel SynthNamesModel
  TrackersModel FnAnalysisModel FnAnalysisProofs SubclassGenModel SubclassGenProps CalledModel.

(** ** What is called *)
Inductive callee :=
| Free (q : qname)                      (** a function *)
| Member (n : string)                   (** a method, of the object given as receiver *)
| Static (cls : qname) (n : string)     (** a static method *)
| Construct (cls : qname)               (** a constructor, building an object in place *)
| Destroy (cls : qname)                 (** a destructor *)
| Made_up.                              (** a cast, allocation or deallocation, or the constructor of a peer *)

(** With a C++ wrapper, Rust calls it and it does what its body says. Without one, cxx calls the C++ function of the name
    and the namespace given by the attributes, as a method if the first parameter is called [self]. *)
Definition called (fa : fn_analysis) (nm : api_name) : callee :=
  match fa_wrapper fa with
  | Some w =>
      match cf_payload w with
      | CbFunctionCall ns n => match cf_kind w with CkMethod => Member n | _ => Free (QN ns n) end
      | CbStaticMethodCall ns c n => Static (QN ns c) n
      | CbPlacementNew ns c => Construct (QN ns c)
      | CbDestructor ns c => Destroy (QN ns c)
      | _ => Made_up
      end
  | None =>
      let n := match cxx_name_attr fa with Some c => c | None => fa_bridge fa end in
      if existsb (fun p => String.eqb (fst p) "self") (fa_params fa) then Member n else Free (QN (namespace_attr (an_name nm) fa) n)
  end.

(** ** What is meant *)
(** The name in C++, and the class the function is generated for. *)
Definition cpp_ident (name : api_name) (fn : func) : string := match an_cpp name with Some c => c | None => f_ident fn end.
Definition class_of (fa : fn_analysis) : option qname :=
  match fa_kind fa with FMethod _ q | FTraitMethod _ q => Some q | FFunction => None end.
(** The last part of the name the class has in C++, which its constructors bear. *)
Definition last_name (env : fn_env) (q : qname) : string := match qget q (fe_nested env) with Some s => s | None => qn_item q end.
Definition has_this (fn : func) : bool := existsb (fun p => String.eqb (fst p) "this") (f_inputs fn).
Definition meant (env : fn_env) (name : api_name) (fn : func) (cls : option qname) : callee :=
  match cls with
  | None => Free (QN (qn_ns (an_name name)) (cpp_ident name fn))
  | Some q =>
      match f_special fn with
      | Some (SmCopy | SmMove) => Construct q
      | Some SmDtor => Destroy q
      | _ =>
          if String.eqb (cpp_ident name fn) (last_name env q) then Construct q
          else if has_this fn then Member (cpp_ident name fn)
          else Static q (cpp_ident name fn)
      end
  end.

(** The names by which constructors are recognised are not misleading: no method is called like the class with a number
    behind, the class's name is not a word reserved in Rust and does not end with an underscore, nor does the Rust name
    bindgen gives to a constructor. *)
Definition clear_names (env : fn_env) (name : api_name) (fn : func) (q : qname) : Prop :=
  (forall s, cpp_ident name fn = last_name env q +++ s -> parses_u32 s = false) /\
  ends_with "_" (last_name env q) = false /\ tc_reserved (fe_tc env) (last_name env q) = false /\
  (ends_with "_" (f_ident fn) = true -> cpp_ident name fn <> last_name env q).

(** ** Proofs *)
Lemma strip_prefix_spec p : forall s t, strip_prefix p s = Some t <-> s = p +++ t.
Proof.
  induction p as [|a p IH]; intros s t; cbn.
  - split; [intros [= ->]; reflexivity|intros ->; reflexivity].
  - destruct s as [|b s]; [split; discriminate|]. destruct (Ascii.eqb_spec a b) as [->|NE].
    + rewrite IH. split; [intros ->; reflexivity|intros [= ->]; reflexivity].
    + split; [discriminate|intros [= E _]; congruence].
Qed.
Lemma parse_digits_under : forall s acc, parse_digits acc (s +++ "_") = None.
Proof.
  induction s as [|c s IH]; intros acc; [reflexivity|]. cbn [parse_digits String.append].
  destruct ((48 <=? N_of_ascii c) && (N_of_ascii c <=? 57))%N; [|reflexivity].
  destruct (_ <? _)%N; [apply IH|reflexivity].
Qed.
Lemma parses_under s : parses_u32 (s +++ "_") = false.
Proof.
  unfold parses_u32. destruct s as [|c s]; [reflexivity|]. cbn [String.append].
  assert (D : forall x, match x +++ "_" with "" => false | String _ _ => match parse_digits 0 (x +++ "_") with Some _ => true | None => false end end = false).
  { intros x. rewrite parse_digits_under. destruct (x +++ "_"); reflexivity. }
  destruct c as [[] [] [] [] [] [] [] []]; try apply (D (String _ s)); apply (D s).
Qed.
(** A name ending with an underscore is not that of a class whose name does not, with or without a number. *)
Lemma under_none own n : ends_with "_" own = false -> constructor_with_suffix (n +++ "_") own = None.
Proof.
  intros U. unfold constructor_with_suffix. destruct (strip_prefix own (n +++ "_")) as [s|] eqn:E; [|reflexivity].
  apply strip_prefix_spec in E. destruct (ends_with "_" s) eqn:ES.
  - apply ends_with_spec in ES as (t & ->). rewrite parses_under. destruct t; reflexivity.
  - exfalso. assert (F : ends_with "_" (own +++ s) = true) by (apply ends_with_spec; exists n; symmetry; exact E).
    destruct s as [|c s]; [rewrite app_empty_r in F; congruence|].
    apply ends_with_spec in F as (t & F).
    assert (G : exists t', String c s = t' +++ "_").
    { clear - F. revert t F. induction own as [|a own IH]; intros t F; cbn in F; [exists t; exact F|].
      destruct t as [|b t]; cbn in F.
      - exfalso. injection F as _ F. destruct own; discriminate.
      - injection F as _ F. exact (IH _ F). }
    rewrite (proj2 (ends_with_spec "_" (String c s)) G) in ES. discriminate.
Qed.
Lemma constructor_clear env name fn q s s' ideal : ideal_rust_name env (an_cpp name) (f_ident fn) s = (s', OOk ideal) ->
  clear_names env name fn q ->
  match constructor_with_suffix ideal (last_name env q) with
  | Some _ => cpp_ident name fn = last_name env q
  | None => cpp_ident name fn <> last_name env q
  end.
Proof.
  intros I (CA & CB & CR & CC). unfold cpp_ident in *. unfold ideal_rust_name in I.
  assert (SAME : forall n, (forall t, n = last_name env q +++ t -> parses_u32 t = false) ->
    match constructor_with_suffix n (last_name env q) with Some _ => n = last_name env q | None => n <> last_name env q end).
  { intros n N. unfold constructor_with_suffix. destruct (strip_prefix (last_name env q) n) as [t|] eqn:E.
    - apply strip_prefix_spec in E. rewrite (N _ E), orb_false_r. destruct (String.eqb_spec t "") as [->|NE].
      + rewrite app_empty_r in E. exact E.
      + intros X. apply NE. clear - E X. rewrite X in E. clear X. induction (last_name env q) as [|a l IH]; [symmetry; exact E|].
        injection E as E. exact (IH E).
    - intros ->. rewrite (proj2 (strip_prefix_spec _ _ "")) in E; [discriminate|symmetry; apply app_empty_r]. }
  destruct (an_cpp name) as [c|]; [|injection I as _ <-; exact (SAME _ CA)].
  destruct (ends_with "_" (f_ident fn)) eqn:U.
  - injection I as _ <-. apply ends_with_spec in U as (t & ->). rewrite (under_none _ _ CB). apply CC. reflexivity.
  - unfold rust_keyword, bind, panic, ret in I. destruct (tc_lexes (fe_tc env) c); [|discriminate]. injection I as _ <-.
    destruct (tc_reserved (fe_tc env) c) eqn:R; [|exact (SAME _ CA)].
    rewrite (under_none _ _ CB). intros ->. congruence.
Qed.

(** The steps of an analysis which does not refuse the function. *)
Lemma analyze_steps env name fn soph pre st st' fa nm :
  analyze_foreign_fn env name fn soph pre st = (st', OOk (fa, nm)) -> fa_ignore fa = None ->
  exists s1 s2 s3 s4 s5 s6 s7 ps0 ideal ctx ig0 ps1 r,
    convert_params env fn (qn_ns (an_name name)) soph (f_inputs fn) s1 = (s2, OOk (ps0, [])) /\
    ideal_rust_name env (an_cpp name) (f_ident fn) s2 = (s3, OOk ideal) /\
    (let self := hd_error (flat_map (fun p => match a_self (snd p) with Some s => [s] | None => [] end) ps0) in
     fn_kind_and_name env fn (qn_ns (an_name name)) pre ideal
       (match self with Some _ => false | None => match f_self_ty fn with Some _ => true | None => false end end)
       (match self with Some (q, _) => Some q | None => f_self_ty fn end)
       (match self with Some (_, m) => Some m | None => None end)
       (match nth_error ps0 1 with
        | Some (_, a) => match pol_type (a_conv a) with TRef _ _ _ => true | _ => false end
        | None => false
        end) s3 = (s4, OOk (fa_kind fa, ctx, fa_rust fa))) /\
    fix_receiver env fn (qn_ns (an_name name)) soph (fa_kind fa) ps0 s4 = (s5, OOk (ig0, ps1)) /\
    convert_return_type env (qn_ns (an_name name)) soph (f_output fn) s6 = (s7, OOk r) /\
    (fa_wrapper fa = None ->
     fa_params fa = map fst (ps1 ++ match r_placement r with Some p => [p] | None => [] end) /\
     fa_cpp_call fa = match an_cpp name with
                      | Some c => Some c
                      | None => if String.eqb (fa_bridge fa) (fa_rust fa) then None else Some (fa_rust fa)
                      end).
Proof.
  unfold analyze_foreign_fn. intros H IG.
  apply bind_ok in H as (s1 & u1 & _ & H).
  apply bind_ok in H as (s2 & [ps0 bads] & HP & H).
  apply bind_ok in H as (s3 & ideal & HI & H).
  apply bind_ok in H as (s4 & [[kind ctx] rust] & HK & H).
  apply bind_ok in H as (s5 & [ig0 ps1] & HR & H).
  apply bind_ok in H as (s6 & bridge0 & _ & H).
  apply bind_ok in H as (s7 & rr & HT & H). apply catch_ok in HT.
  destruct (match rr with Ok r => (check_unsupported env fn kind bads ig0, r) | Err e => (Some e, ret_default) end) as [ig2 r] eqn:RR.
  apply bind_ok in H as (s8 & keyword & HW & H).
  destruct (cpp_wrapper_needed _ _ _ _ _ _ _ _) eqn:NEED;
    [destruct (wrapper_payload fn (qn_ns (an_name name)) kind match an_cpp name with Some c => c | None => rust end) as [payload ck]|];
    apply bind_ok in H as (s9 & v & HV & H); apply ret_ok in H as [-> H]; injection H as -> ->;
    cbn [fa_wrapper fa_cpp_call fa_bridge fa_rust fa_kind fa_params fa_ignore] in *.
  all: assert (OK : exists r', rr = Ok r' /\ bads = []).
  1,3: destruct v as [v|]; [|discriminate]; destruct rr as [r'|e]; injection RR as E1 E2; [|subst ig2 r; discriminate IG];
       exists r'; (split; [reflexivity|]); destruct bads; [reflexivity|]; exfalso; clear - IG E1; unfold check_unsupported in E1; subst ig2;
       unfold check_references, set_if in IG; repeat (match type of IG with context[if ?b then _ else _] => destruct b end); discriminate.
  all: destruct OK as (r' & -> & ->); injection RR as _ ->;
    exists s1, s2, s3, s4, s5, s6, s7, ps0, ideal, ctx, ig0, ps1, r; repeat (split; [assumption|]);
    (split; [destruct HT as [(a & HT & [= <-])|(e & _ & [=])]; exact HT|]).
  - discriminate.
  - intros _. split; reflexivity.
Qed.
Lemma fn_kind_cases env fn ns pre ideal st_ self_ty rc second s s' kind ctx rust :
  fn_kind_and_name env fn ns pre ideal st_ self_ty rc second s = (s', OOk (kind, ctx, rust)) -> f_trait fn = None ->
  match self_ty with
  | None => kind = FFunction
  | Some q =>
      match f_special fn with
      | Some SmMove => kind = FTraitMethod TMoveConstructor q
      | Some SmCopy => kind = FTraitMethod TCopyConstructor q \/ kind = FMethod (MConstructor false) q
      | Some SmDtor => kind = FTraitMethod TDestructor q
      | _ =>
          match constructor_with_suffix ideal (last_name env q) with
          | Some _ => exists d, kind = FMethod (MConstructor d) q
          | None => if st_ then kind = FMethod MStatic q
                    else exists r, rc = Some r /\ (kind = FMethod MNormal q \/ kind = FMethod (MVirtual r) q \/ kind = FMethod (MPureVirtual r) q)
          end
      end
  end.
Proof.
  unfold fn_kind_and_name. intros H FT. rewrite FT in H. cbn [trait_creation_details] in H.
  apply bind_ok in H as (s1 & tr & E & H). apply ret_ok in E as [_ ->].
  destruct self_ty as [q|].
  2:{ apply bind_ok in H as (s2 & n & _ & H). apply ret_ok in H as [_ H]. injection H as -> -> ->. reflexivity. }
  fold (last_name env q) in H.
  assert (GEN : (do (mk, n0) <-
                match constructor_with_suffix ideal (last_name env q) with
                | Some s => ret (MConstructor (match f_special fn with Some SmDefault => true | _ => false end), "new" +++ s)
                | None =>
                    if st_ then ret (MStatic, ideal)
                    else do r <- of_option rc;
                         ret (match f_virtual fn with
                              | None => MNormal
                              | Some VtVirtual => MVirtual r
                              | Some VtPure => MPureVirtual r
                              end, ideal)
                end;
              do n <- match pre with Some p => ret p | None => get_overload_name ns (Some (qn_item q)) n0 end;
              ret (FMethod mk q, error_context_for_method env q n, n)) s1 = (s', OOk (kind, ctx, rust)) ->
     match constructor_with_suffix ideal (last_name env q) with
          | Some _ => exists d, kind = FMethod (MConstructor d) q
          | None => if st_ then kind = FMethod MStatic q
                    else exists r, rc = Some r /\ (kind = FMethod MNormal q \/ kind = FMethod (MVirtual r) q \/ kind = FMethod (MPureVirtual r) q)
     end).
  { clear H. intros H. apply bind_ok in H as (s2 & [mk n0] & M & H). apply bind_ok in H as (s3 & n & _ & H). apply ret_ok in H as [_ H].
    injection H as -> _ _.
    destruct (constructor_with_suffix ideal (last_name env q)); [apply ret_ok in M as [_ M]; injection M as -> _; eauto|].
    destruct st_; [apply ret_ok in M as [_ M]; injection M as -> _; reflexivity|].
    apply bind_ok in M as (s4 & r & R & M). apply of_option_ok in R as [R _]. apply ret_ok in M as [_ M]. injection M as -> _.
    exists r. split; [exact R|]. destruct (f_virtual fn) as [[]|]; auto. }
  destruct (f_special fn) as [[]|]; try exact (GEN H).
  - apply bind_ok in H as (s2 & n & _ & H). apply ret_ok in H as [_ H]. injection H as -> _ _. destruct second; auto.
  - apply bind_ok in H as (s2 & n & _ & H). apply ret_ok in H as [_ H]. injection H as -> _ _. reflexivity.
  - apply bind_ok in H as (s2 & n & _ & H). apply ret_ok in H as [_ H]. injection H as -> _ _. reflexivity.
Qed.

(** A parameter is called [self] if the receiver is among the inputs, or an input has that name. *)
Lemma self_param env fn ns soph s s' ps : convert_params env fn ns soph (f_inputs fn) s = (s', OOk (ps, [])) ->
  ~ In "self" (map fst (f_inputs fn)) ->
  existsb (fun p => String.eqb (fst p) "self") (map fst ps) = has_this fn /\
  (hd_error (flat_map (fun p => match a_self (snd p) with Some x => [x] | None => [] end) ps) = None <-> has_this fn = false).
Proof.
  intros C NS. apply convert_params_ok in C as (_ & _ & C). specialize (C eq_refl). unfold has_this.
  induction C as [|[n t] p l l' (s1 & s2 & H) C IH]; [split; [reflexivity|split; reflexivity]|].
  cbn [map fst existsb flat_map] in *. cbn [snd] in *. destruct (IH (fun I => NS (or_intror I))) as (IH1 & IH2). rewrite IH1.
  apply convert_fn_arg_ok in H as (an & t' & AS). rewrite (as_name _ _ _ _ _ _ _ _ _ _ _ _ AS).
  destruct (String.eqb_spec n "this") as [->|NE].
  - rewrite (as_self_name _ _ _ _ _ _ _ _ _ _ _ _ AS eq_refl). split; [reflexivity|].
    destruct (a_self (snd p)) as [x|] eqn:S; [|exfalso; apply (proj2 (as_self _ _ _ _ _ _ _ _ _ _ _ _ AS) eq_refl); exact S].
    cbn. split; discriminate.
  - destruct (as_other _ _ _ _ _ _ _ _ _ _ _ _ AS NE) as (_ & _ & N). rewrite N.
    destruct (a_self (snd p)) as [x|] eqn:S; [exfalso; apply NE, (as_self _ _ _ _ _ _ _ _ _ _ _ _ AS); rewrite S; discriminate|].
    destruct (String.eqb_spec n "self") as [->|N2]; [exfalso; apply NS; left; reflexivity|]. split; [reflexivity|exact IH2].
Qed.
Lemma placement_name env ns soph rt s s' r : convert_return_type env ns soph rt s = (s', OOk r) ->
  forall p, r_placement r = Some p -> fst (fst p) = "placement_return_type".
Proof.
  unfold convert_return_type. destruct rt as [t0|]; [|intros H; apply ret_ok in H as [_ ->]; discriminate].
  intros H. apply bind_ok in H as (s1 & an & _ & H).
  destruct (ann_ty an) as [lead id g| | | | |] eqn:AT;
    try (apply bind_ok in H as (s2 & c & _ & H); apply ret_ok in H as [_ ->]; discriminate).
  apply bind_ok in H as (s2 & tn & _ & H). destruct (qmem tn (fe_pod_safe env)).
  { apply bind_ok in H as (s3 & c & _ & H). apply ret_ok in H as [_ ->]. discriminate. }
  destruct (_ && _).
  - apply bind_ok in H as (s3 & p & CF & H). apply ret_ok in H as [_ ->]. intros p' [= <-].
    apply convert_fn_arg_ok in CF as (an' & t' & AS). rewrite (as_name _ _ _ _ _ _ _ _ _ _ _ _ AS). apply (as_other _ _ _ _ _ _ _ _ _ _ _ _ AS). discriminate.
  - apply ret_ok in H as [_ ->]. discriminate.
Qed.
Lemma fix_other env fn ns soph kind ps s s' ig ps1 : fix_receiver env fn ns soph kind ps s = (s', OOk (ig, ps1)) ->
  match kind with FMethod (MConstructor _) _ | FTraitMethod (TDestructor | TCopyConstructor | TMoveConstructor) _ => True | _ => ps1 = ps end.
Proof. unfold fix_receiver. intros H. destruct kind as [|[]|[]]; try exact I; apply ret_ok in H as [_ H]; injection H as _ ->; reflexivity. Qed.

Theorem c87_called_partial env name fn soph pre st st' fa nm :
  analyze_foreign_fn env name fn soph pre st = (st', OOk (fa, nm)) -> fa_ignore fa = None ->
  f_trait fn = None -> f_synthetic fn = None -> ~ In "self" (map fst (f_inputs fn)) ->
  (an_cpp name = None -> fa_rust fa = f_ident fn) ->
  (forall q, class_of fa = Some q -> qn_ns q = qn_ns (an_name name) /\ clear_names env name fn q) ->
  called fa nm = meant env name fn (class_of fa) /\
  (class_of fa = None <-> f_self_ty fn = None /\ has_this fn = false) /\
  an_name nm = QN (qn_ns (an_name name)) (fa_bridge fa).
Proof.
  intros H IG FT FS NS NR CL.
  pose proof (analyze_steps _ _ _ _ _ _ _ _ _ H IG) as (s1 & s2 & s3 & s4 & s5 & s6 & s7 & ps0 & ideal & ctx & ig0 & ps1 & r & HP & HI & HK & HR & HT & CALL).
  apply analyze_ok in H as (NM & ps0' & bads & ig0' & ps1' & r' & ig2 & bridge0 & kw & PC).
  destruct (self_param _ _ _ _ _ _ _ HP NS) as (SP & SH). cbv zeta in HK.
  pose proof (fn_kind_cases _ _ _ _ _ _ _ _ _ _ _ _ _ _ HK FT) as K. clear HK.
  pose proof (pc_wrapper _ _ _ _ _ _ _ _ _ _ _ _ _ _ PC) as W.
  pose proof (pc_cpp _ _ _ _ _ _ _ _ _ _ _ _ _ _ PC) as WP. clear PC.
  apply fix_other in HR. pose proof (placement_name _ _ _ _ _ _ _ HT) as PN.
  unfold wrapper_payload in WP. rewrite FS in WP.
  assert (NAME : match an_cpp name with Some c => c | None => fa_rust fa end = cpp_ident name fn).
  { unfold cpp_ident. destruct (an_cpp name); [reflexivity|exact (NR eq_refl)]. }
  rewrite NAME in WP.
  assert (PLAIN : ps1 = ps0 -> fa_wrapper fa = None ->
    called fa nm = if has_this fn then Member (cpp_ident name fn) else Free (QN (qn_ns (an_name name)) (cpp_ident name fn))).
  { intros -> NW. destruct (CALL NW) as (FP & FC). unfold called. rewrite NW, FP, map_app, existsb_app, SP.
    replace (existsb _ (map fst match r_placement r with Some p => [p] | None => [] end)) with false.
    2:{ destruct (r_placement r) as [p|]; [|reflexivity]. cbn. rewrite (PN _ eq_refl). reflexivity. }
    rewrite orb_false_r.
    assert (NN : match cxx_name_attr fa with Some c => c | None => fa_bridge fa end = cpp_ident name fn).
    { unfold cxx_name_attr. rewrite FC, NW, <- NAME. destruct (an_cpp name) as [c|].
      - destruct (String.eqb_spec (fa_bridge fa) c) as [<-|]; reflexivity.
      - destruct (String.eqb_spec (fa_bridge fa) (fa_rust fa)) as [E|NE]; [exact E|]. destruct (String.eqb_spec (fa_bridge fa) (fa_rust fa)); [contradiction|reflexivity]. }
    rewrite NN, NM. unfold namespace_attr. rewrite NW. cbn. destruct (qn_ns (an_name name)); reflexivity. }
  assert (CTOR : forall q, class_of fa = Some q ->
    (fa_kind fa = FTraitMethod TMoveConstructor q \/ fa_kind fa = FTraitMethod TCopyConstructor q \/ exists d, fa_kind fa = FMethod (MConstructor d) q) ->
    called fa nm = Construct q).
  { intros q CQ KK. destruct (fa_wrapper fa) as [w|] eqn:FW.
    2:{ exfalso. destruct KK as [KK|[KK|(d & KK)]]; rewrite KK in W; discriminate. }
    destruct (WP w eq_refl) as (P & _). destruct (CL q CQ) as (Q & _). unfold called. rewrite FW.
    assert (P' : cf_payload w = CbPlacementNew (qn_ns (an_name name)) (qn_item q)).
    { destruct KK as [KK|[KK|(d & KK)]]; rewrite KK in P; injection P as P _; exact P. }
    rewrite P', <- Q. destruct q; reflexivity. }
  assert (DTOR : forall q, class_of fa = Some q -> fa_kind fa = FTraitMethod TDestructor q -> called fa nm = Destroy q).
  { intros q CQ KK. destruct (fa_wrapper fa) as [w|] eqn:FW; [|rewrite KK in W; discriminate].
    destruct (WP w eq_refl) as (P & _). destruct (CL q CQ) as (Q & _). unfold called. rewrite FW.
    rewrite KK in P. injection P as P _. rewrite P, <- Q. destruct q; reflexivity. }
  assert (STAT : forall q, class_of fa = Some q -> fa_kind fa = FMethod MStatic q -> called fa nm = Static q (cpp_ident name fn)).
  { intros q CQ KK. destruct (fa_wrapper fa) as [w|] eqn:FW; [|rewrite KK in W; discriminate].
    destruct (WP w eq_refl) as (P & _). destruct (CL q CQ) as (Q & _). unfold called. rewrite FW.
    rewrite KK in P. injection P as P _. rewrite P, <- Q. destruct q; reflexivity. }
  assert (METH : forall q r, has_this fn = true -> fa_kind fa = FMethod MNormal q \/ fa_kind fa = FMethod (MVirtual r) q \/ fa_kind fa = FMethod (MPureVirtual r) q ->
    called fa nm = Member (cpp_ident name fn)).
  { intros q rc TH KK. destruct (fa_wrapper fa) as [w|] eqn:FW.
    - destruct (WP w eq_refl) as (P & _). unfold called. rewrite FW.
      destruct KK as [KK|[KK|KK]]; rewrite KK in P; injection P as P1 P2; rewrite P1, P2; reflexivity.
    - destruct KK as [KK|[KK|KK]]; rewrite KK in W; try discriminate. rewrite KK in HR. rewrite (PLAIN HR eq_refl), TH. reflexivity. }
  set (selves := hd_error (flat_map (fun p => match a_self (snd p) with Some x => [x] | None => [] end) ps0)) in *.
  assert (STATIC : (match selves with Some _ => false | None => match f_self_ty fn with Some _ => true | None => false end end) = true -> has_this fn = false).
  { intros E. apply SH. destruct selves; [discriminate|reflexivity]. }
  assert (THIS : forall m, (match selves with Some (_, m) => Some m | None => None end) = Some m -> has_this fn = true).
  { intros m E. destruct (has_this fn) eqn:TH; [reflexivity|]. rewrite (proj2 SH eq_refl) in E. discriminate. }
  assert (NONE : match selves with Some (q, _) => Some q | None => f_self_ty fn end = None <-> f_self_ty fn = None /\ has_this fn = false).
  { rewrite <- SH. destruct selves as [[q m]|]; [split; [discriminate|intros (_ & [=])]|]. split; [auto|intros (E & _); exact E]. }
  set (static := match selves with Some _ => false | None => match f_self_ty fn with Some _ => true | None => false end end) in *.
  set (self_ty := match selves with Some (q, _) => Some q | None => f_self_ty fn end) in *.
  set (rcv := match selves with Some (_, m) => Some m | None => None end) in *.
  clearbody static self_ty rcv. clear SH selves SP.
  assert (CLS : class_of fa = self_ty).
  { unfold class_of. destruct self_ty as [q|]; [|rewrite K; reflexivity].
    destruct (f_special fn) as [[]|]; try (destruct (constructor_with_suffix ideal (last_name env q)); [destruct K as (d & K)|destruct static; [|destruct K as (rr & _ & [K|[K|K]])]]);
      try (rewrite K; reflexivity). destruct K as [K|K]; rewrite K; reflexivity. }
  split; [|split; [rewrite CLS; exact NONE|rewrite NM; reflexivity]].
  rewrite CLS. unfold meant. destruct self_ty as [q|].
  - destruct (CL q CLS) as (_ & CN). pose proof (constructor_clear _ _ _ _ _ _ _ HI CN) as CC.
    assert (REST : match constructor_with_suffix ideal (last_name env q) with
          | Some _ => exists d, fa_kind fa = FMethod (MConstructor d) q
          | None => if static then fa_kind fa = FMethod MStatic q
                    else exists r, rcv = Some r /\ (fa_kind fa = FMethod MNormal q \/ fa_kind fa = FMethod (MVirtual r) q \/ fa_kind fa = FMethod (MPureVirtual r) q)
          end -> called fa nm = if String.eqb (cpp_ident name fn) (last_name env q) then Construct q
          else if has_this fn then Member (cpp_ident name fn) else Static q (cpp_ident name fn)).
    { intros KK. destruct (constructor_with_suffix ideal (last_name env q)).
      - rewrite CC, String.eqb_refl. apply CTOR; auto.
      - destruct (String.eqb_spec (cpp_ident name fn) (last_name env q)) as [E|_]; [contradiction|].
        destruct static.
        + rewrite (STATIC eq_refl). apply STAT; auto.
        + destruct KK as (m & RM & KK). rewrite (THIS _ RM). exact (METH _ _ (THIS _ RM) KK). }
    destruct (f_special fn) as [[]|]; try exact (REST K); auto.
    destruct K as [K|K]; eauto.
  - destruct (proj1 NONE eq_refl) as (_ & NT).
    destruct (fa_wrapper fa) as [w|] eqn:FW.
    + destruct (WP w eq_refl) as (P & _). rewrite K in P. injection P as P1 P2. unfold called. rewrite FW, P1, P2. reflexivity.
    + rewrite K in HR. rewrite (PLAIN HR eq_refl), NT. reflexivity.
Qed.
Print Assumptions c87_called_partial.

(** ** In the result of the analysis *)
From Verif Require Import FrontModel FrontProps FnDriverModel FnDriverProps KeptProps ListedProps CppGenModel CppGenProps.
Theorem c87_result_partial : forall d l r found nm f pv fa, analyze_functions_x d l = OOk (r, found) ->
  In (XA nm (XFunction f pv (Some fa))) r -> fa_ignore fa = None ->
  f_trait f = None -> f_synthetic f = None -> ~ In "self" (map fst (f_inputs f)) ->
  (an_cpp nm = None -> fa_rust fa = f_ident f) ->
  (forall q, class_of fa = Some q -> qn_ns q = qn_ns (an_name nm) /\ clear_names (x_env d l) nm f q) ->
  called fa nm = meant (x_env d l) nm f (class_of fa) /\ qn_item (an_name nm) = fa_bridge fa.
Proof.
  intros d l r found nm f pv fa A I IG FT FS NS NR CL.
  destruct (function_analysed d l r found A nm f pv fa I) as (name & soph & pre & s & s' & Q).
  pose proof (analyze_ok _ _ _ _ _ _ _ _ _ Q) as (NM & _).
  assert (C : an_cpp nm = an_cpp name) by (rewrite NM; reflexivity). assert (N : qn_ns (an_name nm) = qn_ns (an_name name)) by (rewrite NM; reflexivity).
  unfold clear_names, cpp_ident in CL. rewrite C in NR, CL. rewrite N in CL.
  destruct (c87_called_partial _ _ _ _ _ _ _ _ _ Q IG FT FS NS NR CL) as (E & _ & B). split; [|rewrite B; reflexivity].
  rewrite E. unfold meant, cpp_ident. rewrite C, N. reflexivity.
Qed.
Print Assumptions c87_result_partial.

(** ** Names which mislead *)
(** A method [n] of [cls], called [ident] by bindgen, with the receiver and an [int] as parameters. *)
Definition method_of (cls n ident : string) : xapi :=
  XA (AN (q0 ident) (Some n)) (XFunction (Func ident [("this", TPtr true (rooted cls)); ("a", TPath [] "i32" [])] false None None VisPublic None
    (Some (q0 cls)) None None None None) PvOther None).
Definition final_fa (d : dcfg) (l : list xapi) (ident : string) : list (api_name * func * fn_analysis) :=
  flat_map (fun x => match x_kind x with XFunction f _ (Some fa) => if String.eqb (f_ident f) ident then [(x_info x, f, fa)] else [] | _ => [] end) (final_of d l).
Definition demo13 : list xapi :=
  [a_class (AN (q0 "Foo") None); method_of "Foo" "Foo1" "Foo_Foo1"; method_of "Foo" "bar" "Foo_bar"; method_of "Foo" "Foo" "Foo_Foo";
   XA (AN (QN ["n"] "f1") (Some "f")) (XFunction (Func "f1" [("a", TPath [] "i32" [])] false None None VisPublic None None None None None None) PvOther None)].
Definition demo13_l1 : list xapi := Eval vm_compute in front_for all demo13.
Definition demo13_r : list xapi := Eval vm_compute in fst (analysed_for all demo13).

(** A method whose name is that of its class with a number behind is taken for a constructor, as bindgen numbers
    overloaded constructors in that way: [void Foo::Foo1(int)] becomes [Foo::new1] in Rust, and calling that builds a new
    [Foo] from the number instead. *)
Theorem c87_numbered_method_refuted : exists d l0 l r found nm f pv fa,
  front (dc_front d) l0 = OOk l /\ analyze_functions_x d l = OOk (r, found) /\ In (XA nm (XFunction f pv (Some fa))) r /\ fa_ignore fa = None /\
  class_of fa = Some (q0 "Foo") /\ an_cpp nm = Some "Foo1" /\ fe_nested (x_env d l) = [] /\ has_this f = true /\ f_special f = None /\
  meant (x_env d l) nm f (class_of fa) = Member "Foo1" /\ called fa nm = Construct (q0 "Foo").
Proof.
  exists all, demo13, demo13_l1. eexists demo13_r, _. do 4 eexists. split; [vm_compute; reflexivity|]. split; [vm_compute; reflexivity|].
  split; [unfold demo13_r; do 3 right; left; reflexivity|]. repeat split.
Qed.
Print Assumptions c87_numbered_method_refuted.

(** A method, a constructor and an overloaded function of a namespace. *)
Example c87_case : forall n c, In (n, c) [("Foo_bar", Member "bar"); ("Foo_Foo", Construct (q0 "Foo")); ("f1", Free (QN ["n"] "f"))] ->
  exists found nm f pv fa, analyze_functions_x all demo13_l1 = OOk (demo13_r, found) /\
  In (XA nm (XFunction f pv (Some fa))) demo13_r /\ f_ident f = n /\ fa_ignore fa = None /\
  f_trait f = None /\ f_synthetic f = None /\ ~ In "self" (map fst (f_inputs f)) /\
  (an_cpp nm = None -> fa_rust fa = f_ident f) /\
  (forall q, class_of fa = Some q -> qn_ns q = qn_ns (an_name nm) /\ clear_names (x_env all demo13_l1) nm f q) /\
  called fa nm = c.
Proof.
  assert (RUN : exists found, analyze_functions_x all demo13_l1 = OOk (demo13_r, found)) by (eexists; vm_compute; reflexivity).
  destruct RUN as (found & RUN).
  intros n c [[= <- <-]|[[= <- <-]|[[= <- <-]|[]]]]; exists found; do 4 eexists; (split; [exact RUN|]).
  1: split; [unfold demo13_r; do 4 right; left; reflexivity|].
  2: split; [unfold demo13_r; do 5 right; left; reflexivity|].
  3: split; [unfold demo13_r; do 6 right; left; reflexivity|].
  all: repeat (split; [first [reflexivity|cbn; intros [E|[E|[]]]; discriminate|cbn; intros [E|[]]; discriminate]|]).
  all: split; [discriminate|].
  3: split; [discriminate|reflexivity].
  all: split; [|reflexivity]; intros q [= <-]; split; [reflexivity|].
  all: unfold clear_names; split; [|split; [reflexivity|split; [reflexivity|discriminate]]].
  - intros s [=].
  - intros s E. change (last_name _ _) with "Foo" in E. cbn in E. injection E as <-. reflexivity.
Qed.
