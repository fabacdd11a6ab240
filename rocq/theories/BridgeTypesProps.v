(** C89: the types in the signatures of the functions told to cxx are types told to cxx. *)
From Coq Require Import Relations Permutation.
From Verif Require Import Base QNamesModel KnownTypesModel KnownTypesProofs ApiModel ApiSpec ApiVecModel ApiVecProofs NameCheckModel
  TypesModel TypesSpec TypedefsModel TypedefsProofs TypedefsProps CppTypesModel ConcreteNamesModel TypeConverterModel
  TypeConverterProofs TypeConverterProps TypeConverterDepsProps ByValueModel ConversionModel SynthNamesModel TrackersModel
  FnAnalysisModel FnAnalysisProofs SubclassGenModel KeptProofs RemoveIgnoredModel GcModel GcProofs PipelineModel PipelineProofs PipelineProps
  FrontModel FrontProofs FnDriverModel FnDriverProofs FnDriverProps UnqualifyModel UnqualifyProofs FnCodegenModel
  CppGenModel CalledModel RsGenModel KeptProps ListedProps RsGenProps BridgeTypesProofs.
From Verif Require FrontProps CppGenProps.

(** ** Typedefs *)
Section Typedefs.
Variable env : tc_env.
Hypothesis ND : NoDup (map fst (tc_typedefs env)).
(** [q] is mentioned by what a typedef stands for, when that is no name of a type but a pointer, a reference or an array. *)
Definition within_typedef (q : qname) : Prop :=
  exists n tgt, In (n, tgt) (tc_typedefs env) /\ (forall l i a, tgt <> TPath l i a) /\ names tgt q.
Definition resolved (cs : concretes) (q : qname) : Prop :=
  TypedefsProps.declared (tc_typedefs env) q -> known_name q \/ within_typedef q \/ exists def, sget def cs = Some q.
Lemma resolved_mono cs cs' q : extends cs cs' -> resolved cs q -> resolved cs' q.
Proof. intros E H D. destruct (H D) as [K|[K|(def & K)]]; [auto|auto|]. right. right. exists def. apply E, K. Qed.
Lemma resolves_final orig lead id args tn deps rl ri ra : path_name lead id = Some orig -> resolves env orig lead id args tn deps rl ri ra -> ~ TypedefsProps.declared (tc_typedefs env) tn.
Proof.
  intros N R. pose proof (resolve_correct _ ND orig) as RC. inversion R; subst.
  - rewrite H in RC. exact RC.
  - rewrite H in RC. destruct RC as (_ & F & _). apply F. apply path_name_spec. assumption.
Qed.
End Typedefs.

(** Typedefs are seen through: no type comes out of a conversion under the name of a typedef, but for those mentioned within the pointer, the reference or
    the array another typedef stands for, and for template instantiations to which the name was given as well. *)
Theorem c89_typedefs_partial : forall fuel env ns cs c t cs' a q, NoDup (map fst (tc_typedefs env)) ->
  convert_type fuel env ns cs c t = (cs', OOk a) -> names (ann_ty a) q -> In q (map fst (tc_typedefs env)) ->
  known_name q \/ within_typedef env q \/ exists def, sget def cs' = Some q.
Proof.
  intros fuel env ns cs c t cs' a q ND H NM D.
  assert (D' : TypedefsProps.declared (tc_typedefs env) q) by (apply in_map_iff in D as ((n & tgt) & <- & D); exists tgt; exact D).
  cut (resolved env cs' q); [auto|]. clear D D'. apply convert_type_rel in H. revert NM. revert cs c t cs' a H.
  assert (PIN : forall e cs, (names e q -> resolved env cs q) -> names (pin_mut e) q -> resolved env cs q).
  { intros e d H (l & id & P & R) DC. unfold pin_mut in P. inversion P as [| ? ? ? ? ? a Ia Pa | | | ]; subst.
    - apply path_name_refers in R. rewrite path_name_cases in R. cbn in R. injection R as <-. left. exact known_pin.
    - destruct Ia as [<-|[]]. inversion Pa; subst. apply H; [|exact DC]. exists l, id. auto. }
  assert (X : (forall cs c t cs' a, conv_to env ns cs c t cs' a -> extends cs cs' /\ (names (ann_ty a) q -> resolved env cs' q)) /\
    (forall cs c l i ar cs' a, plain_to env ns cs c l i ar cs' a -> extends cs cs' /\ (names (ann_ty a) q -> resolved env cs' q)) /\
    (forall cs ar cs' la d x, args_to env ns cs ar cs' la d x -> extends cs cs' /\ forall e, In e la -> names e q -> resolved env cs' q)).
  { apply conv_mutind.
    - auto.
    - intros cs c lead id args m e cs' i U C [E IH]. split; [exact E|]. cbn. destruct m; [apply PIN; exact IH|].
      intros (l1 & id1 & P & R). inversion P; subst. apply IH. exists l1, id1. auto.
    - intros cs c lead id args m e cs' i U _ C [E IH]. split; [exact E|]. intros (l1 & id1 & P & R). cbn in P. inversion P; subst. apply IH. exists l1, id1. auto.
    - intros cs c lead id args cs' a b _ _ _ _ Pl [E IH] A. split; [exact E|]. destruct A; [exact IH | exact IH |].
      intros (l1 & id1 & P & R) _. cbn in P. inversion P as [| |? ? ? ? ? P1| |]; subst.
      inversion P1 as [| ? ? ? ? ? ? Ia | | |]; subst; [|destruct Ia]. apply path_name_refers in R. rewrite path_name_cases in R. cbn in R. injection R as <-. left. exact known_str.
    - intros cs c m lt e cs' i C [E IH]. split; [exact E|]. intros (l1 & id1 & P & R). cbn in P. inversion P; subst. apply IH. exists l1, id1. auto.
    - intros cs c e n cs' i C [E IH]. split; [exact E|]. intros (l1 & id1 & P & R). cbn in P. inversion P; subst. apply IH. exists l1, id1. auto.
    - intros cs c m e cs' i _ C [E IH]. split; [exact E|]. intros (l1 & id1 & P & R). cbn in P. inversion P; subst. apply IH. exists l1, id1. auto.
    - (* other *) intros cs c lead id args lead1 id1 orig other _ _ _ _ Rt NP. split; [apply extends_refl|]. intros N _. cbn [ann_ty] in *.
      right. left. pose proof (resolve_correct _ ND orig) as RC. rewrite Rt in RC. destruct RC as ((n & _ & I) & _).
      exists n, other. auto.
    - (* simple *) intros cs c lead id args lead1 id1 orig tn deps rl ri l' i' _ N _ _ Rs S. split; [apply extends_refl|].
      intros (lx & ix & P & R) DC. cbn [ann_ty] in *. destruct (resolves_name _ _ _ _ _ _ _ _ _ _ N Rs) as (N' & _).
      inversion P as [| ? ? ? ? ? ? Ia | | |]; subst; [|destruct Ia].
      assert (SN := substituted_name _ _ _ _ _ _ _ N' S (refers_path_name _ _ _ _ R)).
      destruct (kt_get tn) as [td|]; [left; exists td; exact SN|]. subst. elim (resolves_final _ ND _ _ _ _ _ _ _ _ _ N Rs DC).
    - (* concrete *)
      intros cs c lead id args lead1 id1 orig tn deps rl ri ra l' i' q0 def cs' n made _ N _ _ Rs _ S _ _ PN _ _ G.
      destruct (get_made _ _ _ _ _ G) as (G1 & G2 & _). split; [exact G2|]. intros (lx & ix & P & R) _.
      cbn [ann_ty] in *. destruct (to_type_path_shape n) as (ln & ni & En). rewrite En in P.
      inversion P as [| ? ? ? ? ? ? Ia | | |]; subst; [|destruct Ia].
      destruct (to_type_path_name _ _ _ _ _ En (refers_path_name _ _ _ _ R)) as [_ [K | ->]]; [left; exact K|]. right. right. eauto.
    - (* generic *)
      intros cs c lead id args lead1 id1 orig tn deps rl ri ra l' i' cs' la d x k _ N _ _ Rs _ S G A [E IH] CP. split; [exact E|].
      intros (lx & ix & P & R). cbn [ann_ty] in *. destruct (resolves_name _ _ _ _ _ _ _ _ _ _ N Rs) as (N' & _).
      inversion P as [| ? ? ? ? ? e Ie Pe | | |]; subst; [|apply (IH e Ie); exists lx, ix; auto].
      intros _. left. assert (SN := substituted_name _ _ _ _ _ _ _ N' S (refers_path_name _ _ _ _ R)).
      apply generic_known, known_name_get in G. destruct G as (td & G). rewrite G in SN. exists td. exact SN.
    - intros cs. split; [apply extends_refl|]. intros e [].
    - intros cs s r cs' l d x A [E IH]. split; [exact E|]. intros e [<-|Ie]; [intros (l1 & id1 & P & _); inversion P | apply IH, Ie].
    - intros cs a r cs1 i cs' l d x _ C [EC IHC] A [EA IHA]. split; [eapply extends_trans; eauto|]. intros e [<-|Ie] NM.
      + eapply resolved_mono; [exact EA|]. apply IHC, NM.
      + apply (IHA e Ie), NM. }
  intros cs c t cs' a H. exact (proj2 (proj1 X _ _ _ _ _ H)).
Qed.
Print Assumptions c89_typedefs_partial.

(** ** The bridge *)
(** The types in a signature, as told to cxx. *)
Definition sig_types (f : rust_fn) (t : ty) : Prop :=
  In (RTy t) (map wp_type (sg_params (rf_sig f))) \/ sg_ret (rf_sig f) = Some (RTy t).
(** cxx is told of a type called [id]. *)
Definition told (F : rs_file) (id : string) : Prop :=
  (exists ns c t, In (FType ns c id t) (rs_cpp F)) \/ In (FCType id) (rs_cpp F) \/ In (RsGenModel.RType id) (rs_rust F).
(** An item which is no type, or is one cxx is not told of: a typedef, or a class with template parameters. *)
Definition untold (x : xapi) : Prop :=
  match x_kind x with
  | XTypedef _ _ _ | XStringConstructor | XFunction _ _ _ | XConst | XRustFn _ | XRustSubclassFn _ _ | XSubclass _ | XIgnored _ _ | XSubclassTraitItem _ => True
  | XStruct _ (Some pa) => 0 < pa_generics pa
  | _ => False
  end.
(** [q] is a type made for a subclass, and no subclass for which such a type is made is left. *)
Definition subclass_lost (fl : list xapi) (v : list api) (q : qname) : Prop := (holder q \/ subclass_name v q) /\
  forall x sup, In x fl -> x_kind x = XSubclass sup -> sc_holder (xname x) <> qn_item q /\ qn_item (subclass_cpp (xname x)) <> qn_item q.

Lemma unqualified_path : forall t l id, path_in l id (unqualify_type t) -> exists l', path_in l' id t.
Proof.
  fix IH 1. intros t l id. destruct t as [lead i args|m lt e|m e|e n|s|s].
  - rewrite unqualify_path. intros P. inversion P as [|? ? ? ? ? a Ia Pa| | |]; subst; [exists lead; constructor|].
    assert (X : exists b l', In b args /\ path_in l' id b).
    { clear P. revert Ia. induction args as [|b args IHa]; cbn; [intros []|]. intros [<-|Ia].
      - destruct (IH b l id Pa) as (l' & P'). exists b, l'. auto.
      - destruct (IHa Ia) as (b' & l' & I' & P'). exists b', l'. auto. }
    destruct X as (b & l' & Ib & Pb). exists l'. eapply pi_arg; eauto.
  - cbn. intros P. inversion P; subst. destruct (IH e l id ltac:(assumption)) as (l' & P'). exists l'. constructor. exact P'.
  - cbn. intros P. inversion P; subst. destruct (IH e l id ltac:(assumption)) as (l' & P'). exists l'. constructor. exact P'.
  - cbn. intros P. exists l. exact P.
  - intros P. inversion P.
  - intros P. inversion P.
Qed.
Lemma pinned_path lead id args args' : add_lifetime_to_pinned_reference lead id args = PinOk args' ->
  forall l i, path_in l i (TPath lead id args') -> path_in l i (TPath lead id args).
Proof.
  unfold add_lifetime_to_pinned_reference. intros H l i P.
  assert (C : args' = args \/ exists m lt e more, args = TRef m lt e :: more /\ args' = TRef m (Some "'a") e :: more).
  { destruct (lead ++ [id]) as [|a r1]; [injection H as ->; auto|]. destruct (negb _); [discriminate|]. destruct r1 as [|b r2]; [injection H as ->; auto|].
    destruct (negb _); [discriminate|]. destruct r2 as [|c r3]; [injection H as ->; auto|]. destruct (negb _); [discriminate|].
    destruct r3; [|discriminate]. destruct args as [|[| | | | |] more]; try discriminate. injection H as <-. right. eauto 8. }
  destruct C as [->|(m & lt & e & more & -> & ->)]; [exact P|]. inversion P as [|? ? ? ? ? a Ia Pa| | |]; subst; [constructor|].
  destruct Ia as [<-|Ia]; [|eapply pi_arg; [right; exact Ia|exact Pa]]. inversion Pa; subst. eapply pi_arg; [left; reflexivity|]. constructor. assumption.
Qed.
Lemma lifetime_paths non_pod details ps rt rc sg : (forall p, In p ps -> exists t, wp_type p = RTy t) ->
  add_explicit_lifetime_if_necessary non_pod details false ps rt rc = Some sg ->
  forall t l id, In (RTy t) (map wp_type (sg_params sg)) \/ sg_ret sg = Some (RTy t) -> path_in l id t ->
  exists u, (In (RTy u) (map wp_type ps) \/ rt = Some (RTy u)) /\ path_in l id u.
Proof.
  intros AL H t l id. unfold add_explicit_lifetime_if_necessary in H. destruct (reference_parameter_is_non_pod_reference _ _ _); [|discriminate].
  destruct (return_type_is_pod_or_known_type_reference _ _); [|discriminate].
  destruct (negb _); [injection H as <-; cbn; eauto|].
  destruct (ret_with_lifetime rt) as [| |rt'] eqn:R; [discriminate|injection H as <-; cbn; eauto|].
  destruct (params_with_lifetime ps) as [ps'|] eqn:E; [|discriminate]. injection H as <-. cbn [sg_params sg_ret]. intros [I|I] P.
  - clear R. revert ps' E I. induction ps as [|p ps IH]; cbn [params_with_lifetime]; intros ps' E I; [injection E as <-; destruct I|].
    destruct (param_with_lifetime p) as [p'|] eqn:Ep; [|discriminate]. destruct (params_with_lifetime ps) as [r'|]; [|discriminate]. injection E as <-.
    cbn [map] in I. destruct I as [I|I].
    + destruct (AL p (or_introl eq_refl)) as (u & Ku). exists u. split; [left; left; exact Ku|].
      unfold param_with_lifetime in Ep. rewrite Ku in Ep. destruct u as [lead i args|m lt e|m e|e n|s|s]; try (injection Ep as <-; rewrite Ku in I; injection I as ->; exact P).
      * destruct (add_lifetime_to_pinned_reference lead i args) eqn:PN; try discriminate; injection Ep as <-.
        -- rewrite Ku in I. injection I as <-. exact P.
        -- cbn in I. injection I as <-. eapply pinned_path; eauto.
      * injection Ep as <-. cbn in I. injection I as <-. inversion P; subst. constructor. assumption.
    + destruct (IH (fun p Hp => AL p (or_intror Hp)) r' eq_refl I) as (u & [U|U] & PU); [exists u; cbn; auto|exists u; auto].
  - injection I as ->. unfold ret_with_lifetime in R. destruct rt as [[u|]|]; try discriminate. exists u. split; [auto|].
    destruct u as [lead i args|m lt e|m e|e n|s|s]; try discriminate.
    + destruct (add_lifetime_to_pinned_reference lead i args) eqn:PN; try discriminate. injection R as <-. eapply pinned_path; eauto.
    + injection R as <-. inversion P; subst. constructor. assumption.
Qed.
(** The types in the signature told to cxx mention what the analysis put there. *)
Lemma bridge_paths non_pod fa g f t l id : gen_function non_pod fa = Some g -> o_bridge g = Some f -> sig_types f t -> path_in l id t ->
  fa_ignore fa = None /\ exists u l', (In u (map snd (fa_params fa)) \/ fa_ret fa = Some u) /\ path_in l' id u.
Proof.
  unfold gen_function. intros G O S P. destruct (fa_ignore fa); [cbn in G; injection G as <-; discriminate O|]. split; [reflexivity|].
  destruct (_ || _); [injection G as <-; discriminate O|].
  destruct (add_explicit_lifetime_if_necessary _ _ _ _ _ _) as [sg|] eqn:A; [|discriminate].
  assert (B : f = RF (bridge_token (fa_unsafe fa)) (fa_bridge fa)
                (Sig (sg_lt sg) (map (fun p => WP (wp_mut p) (wp_name p) (unqualify_rty (wp_type p))) (sg_params sg))
                     (match sg_ret sg with Some t => Some (unqualify_rty t) | None => None end)) []).
  { destruct (if fa_rust_wrapper fa then _ else _); [|discriminate]. injection G as <-. cbn in O. injection O as <-. reflexivity. }
  clear G O. subst f. unfold sig_types in S. cbn [rf_sig sg_params sg_ret] in S.
  assert (X : exists t', (In (RTy t') (map wp_type (sg_params sg)) \/ sg_ret sg = Some (RTy t')) /\ t = unqualify_type t').
  { destruct S as [S|S].
    - rewrite map_map in S. apply in_map_iff in S as (p & E & I). cbn in E. destruct (wp_type p) as [t'|] eqn:K; [|discriminate]. cbn in E. injection E as <-.
      exists t'. split; [|reflexivity]. left. rewrite <- K. apply in_map, I.
    - destruct (sg_ret sg) as [[t'|]|]; try discriminate. cbn in S. injection S as <-. eauto. }
  destruct X as (t' & W & ->). apply unqualified_path in P as (l' & P).
  assert (AL : forall p, In p (map (fun p => WP false (fst p) (RTy (snd p))) (fa_params fa)) -> exists t, wp_type p = RTy t).
  { intros p Hp. apply in_map_iff in Hp as (q & <- & _). exists (snd q). reflexivity. }
  destruct (lifetime_paths _ _ _ _ _ _ AL A t' l' id W P) as (u & [U|U] & PU).
  - exists u, l'. split; [|exact PU]. left. rewrite map_map in U. apply in_map_iff in U as (p & E & I). cbn in E. injection E as <-. apply in_map, I.
  - exists u, l'. split; [|exact PU]. right. destruct (fa_ret fa); [|discriminate]. injection U as ->. reflexivity.
Qed.

Section Bridge.
Variables (d : dcfg) (l l1 r : list xapi) (found : list (qname * IC.items)) (g : apivec).
Hypothesis ND : NoDup (map xname l).
Hypothesis PA : FrontProps.parsed l.
Hypothesis US : uses_named l.
Hypothesis OWN : own_names l.
Hypothesis FR : front (dc_front d) l = OOk l1.
Hypothesis AN : analyze_functions_x d l1 = OOk (r, found).
Hypothesis GC : to_gc (ac_builtin (dc_front d)) (ac_lexes (dc_front d)) (ac_reserved (dc_front d)) is_known_type (ac_allow (dc_front d)) to_cpp_name
  (av_from_list (ac_builtin (dc_front d)) (map (erase d) r)) = Some g.
Let out := append_ctype_information (ac_builtin (dc_front d)) is_ctype g.
Let fl := map (restore r) (av_apis out).
Lemma g_wf : av_wf g.
Proof. destruct (stages _ _ _ _ _ _ _ g (v_nodup d l1 r found AN) GC) as (abs & l2 & l4 & l5 & _ & _ & N5 & E). eapply gc_spec; eauto. Qed.
(** A function code is generated for is one of those kept. *)
Lemma function_kept x f pv fa : In x fl -> x_kind x = XFunction f pv (Some fa) -> In x r -> In (erase d x) (av_apis g).
Proof.
  intros I K R. apply in_map_iff in I as (b & E & I).
  assert (KB : match api_kind_of b with KIgnored _ _ | KCType _ => False | _ => True end).
  { rewrite <- E in K. unfold restore in K. cbn [x_kind] in K. destruct (api_kind_of b); auto; discriminate K. }
  assert (NI : ~ ignored b) by (apply not_ignored_is; unfold is_ignored; destruct (api_kind_of b); auto; contradiction KB).
  apply (ctypes_in _ _ _ g_wf) in I as [I|(q & Q)]; [|rewrite Q in KB; contradiction KB|exact NI].
  destruct (unchanged _ _ _ _ _ _ _ g b (v_nodup d l1 r found AN) GC I NI) as (a & A1 & A2 & A3 & A4).
  rewrite (v_apis d l1 r found AN) in A1. apply in_map_iff in A1 as (y & <- & Hy).
  assert (y = x).
  { apply (FrontProps.same_entry r); auto using (r_nodup d l1 r found AN). unfold xname. change (x_info y) with (api_info (erase d y)). rewrite A2, <- E. reflexivity. }
  subst y. destruct A3 as [-> _]; [|exact I]. intros s Z. destruct x as [ix kx]. cbn in K. subst kx. discriminate Z.
Qed.
(** What a kept function or typedef needs, if it is a C type, is a C type told to cxx. *)
Variables (o : rs_options) (F : rs_file).
Hypothesis P : pieces_of o fl F.
Lemma item_told x : In x fl -> told F (qn_item (xname x)) \/ untold x.
Proof.
  intros I. destruct (po_total _ _ _ P x I) as (p & GX).
  assert (IN : forall f, In f (rp_cpp p) -> (forall h, f <> FInclude h) -> In f (rs_cpp F)) by (intros f Hf NI; apply (po_cpp _ _ _ P); eauto).
  assert (TY : forall kind mv ds n, generate_type o fl (xname x) kind mv ds n = Some p -> n = 0 -> told F (qn_item (xname x))).
  { intros kind mv ds n E ->. unfold generate_type in E. destruct (superclass_traits _ _) as [ts|]; [|discriminate]. cbn [Nat.ltb Nat.leb] in E.
    left. unfold generate_cxxbridge_type in E. destruct kind; injection E as <-; eexists _, _, _; (apply IN; [left; reflexivity|discriminate]). }
  pose proof GX as G0. unfold untold. unfold generate_rs_for_api in GX. destruct (x_kind x) eqn:K; auto; try (left; eapply TY; [exact GX|reflexivity]).
  - destruct an as [pa|]; [|discriminate]. destruct (pa_generics pa) eqn:N; [|right; lia]. left. eapply TY; [exact GX|reflexivity].
  - injection GX as <-. left. right. left. apply IN; [left; reflexivity|discriminate].
  - injection GX as <-. left. right. right. apply (po_rust _ _ _ P). eexists _, _. split; [exact I|]. split; [exact G0|]. left. reflexivity.
  - injection GX as <-. left. left. eexists _, _, _. apply IN; [left; reflexivity|discriminate].
Qed.
Lemma needed_ctype a q : In a (av_apis g) -> depends_on a q -> is_ctype q = true ->
  told F (qn_item q) \/ exists x, In x fl /\ xname x = QN [] (qn_item q) /\ untold x.
Proof.
  intros I D C. destruct (c76_ctypes_declared (ac_builtin (dc_front d)) is_ctype g g_wf) as [H _].
  destruct (H a q I D C) as (b & Hb & E). assert (IB : In (restore r b) fl) by (apply in_map, Hb).
  destruct (item_told _ IB) as [T|U]; [left; change (xname (restore r b)) with (aname b) in T; rewrite E in T; exact T|].
  right. exists (restore r b). auto.
Qed.

Lemma target_tracked y i op k ds q : In y l1 -> x_kind y = XTypedef i op (Some (k, ds)) -> names (td_target k) q -> is_ctype q = true ->
  exists p, (In p ds \/ op = Some p) /\ kt_get p = kt_get q.
Proof.
  intros Hy K NM C. destruct (FrontProps.typedef_survivor _ _ _ _ _ _ _ ND FR Hy K) as (la & lb & T & _ & Y1 & _). destruct i as [n t|t].
  - destruct (FrontProps.tdef_sound _ _ _ ND T _ Y1 _ _ _ _ _ K) as (_ & cs & cs' & a & CV & -> & -> & _).
    assert (NT : NoDup (map fst (tc_typedefs (tc_new (dc_front d) l)))) by (rewrite (FrontProps.parsed_env _ l PA); constructor).
    pose proof (conversion_tracked _ _ _ _ _ _ _ _ q NT CV NM C) as A.
    destruct A as [(p & A & B)|(al & m & tgt & q' & _ & _ & A & _)]; [exists p; auto|]. rewrite (FrontProps.parsed_env _ l PA) in A. destruct A.
  - destruct (use_sound_l _ _ _ T _ Y1 _ _ _ _ K) as (-> & x & a & Hx & KX). destruct (US _ _ _ _ Hx KX) as (lead & id' & p & -> & -> & R).
    exists p. split; [auto|]. destruct NM as (l0 & id & PI & RF). cbn in PI. inversion PI as [|? ? ? ? ? a0 Ia Pa| | |]; subst; [|destruct Ia].
    apply path_name_refers in R, RF. congruence.
Qed.
(** A C type named in a signature. *)
Lemma signature_ctype a ds q : In a (av_apis g) -> ~ ignored a -> (forall x, In x ds -> depends_on a x) ->
  tracked (fold_left note_td l1 []) ds q -> is_ctype q = true ->
  exists p, kt_get p = kt_get q /\
  ((told F (qn_item p) \/ exists x, In x fl /\ xname x = QN [] (qn_item p) /\ untold x) \/ exists m, broken d l1 r m /\ stands_for l1 m p).
Proof.
  intros Ha NI DS T C. destruct (T C) as [(p & Ip & E)|(al & n & tgt & q' & Hal & CH & HT & NM & E)].
  - exists p. split; [exact E|]. left. apply (needed_ctype a p Ha (DS _ Ip)). unfold is_ctype, on_behavior in *. rewrite E. exact C.
  - destruct (chain_alive d l l1 r found g ND PA US OWN FR AN GC a al Ha NI (DS _ Hal) n CH tgt HT) as [(m & B & CM)|(x & i & op & k & dp & Hx & Ex & K & HG)].
    { exists q'. split; [exact E|]. right. exists m. split; [exact B|]. eapply chain_stands; eauto. }
    assert (TY : tgt = td_target k).
    { apply typedefs_in in HT as [[]|(x2 & i2 & o2 & k2 & ds2 & Hx2 & Ex2 & K2 & ->)].
      assert (x2 = x) by (apply (FrontProps.same_entry l1); auto using (l1_nodup d l l1 ND FR); congruence). subst x2. congruence. }
    subst tgt. assert (C' : is_ctype q' = true) by (unfold is_ctype, on_behavior in *; rewrite E; exact C).
    destruct (target_tracked x i op k dp q' Hx K NM C') as (p & DP & EP). exists p. split; [congruence|]. left.
    apply (needed_ctype (API (x_info x) (KTypedef op dp)) p HG); [constructor; exact DP|]. unfold is_ctype, on_behavior in *. rewrite EP. exact C'.
Qed.
End Bridge.

(** C89. Every type named in the signature of a function told to cxx is a type told to cxx, or is built into cxx; or it is the name of a kept item of another
    kind, as a typedef is, or is the type of a subclass that was lost, or its item is broken as for C84; or it is a C type by whose
    name there is another item, or which the declaration knows by its C++ name. Partial for these last alternatives; for the typedefs see C89's
    other theorem, and the refutation below. *)
Theorem c89_types_partial : forall d l l1 r found fl o order_ty order_key includes header F,
  (forall p l, Permutation (order_ty p l) l) -> (forall p l, Permutation (order_key p l) l) -> Forall (placed o) l ->
  NoDup (map xname l) -> FrontProps.parsed l -> uses_named l -> own_names l ->
  front (dc_front d) l = OOk l1 -> analyze_functions_x d l1 = OOk (r, found) -> final_apis d l = Some fl ->
  rs_codegen o order_ty order_key includes header fl = Some F ->
  forall ns c f t lead id, In (FFn ns c f) (rs_cpp F) -> sig_types f t -> path_in lead id t -> id <> "root" -> id <> "output" ->
  told F id \/ exists q, qn_item q = id /\
    ((known_name q /\ is_ctype q = false) \/
     (exists x, In x fl /\ xname x = q /\ untold x) \/
     subclass_lost fl (map (erase d) r) q \/
     (exists m, broken d l1 r m /\ (m = q \/ exists p, kt_get p = kt_get q /\ stands_for l1 m p)) \/
     (is_ctype q = true /\ exists p, kt_get p = kt_get q /\
        ((qn_item p <> id /\ told F (qn_item p)) \/ exists x, In x fl /\ xname x = QN [] (qn_item p) /\ untold x))).
Proof.
  intros d l l1 r found fl o order_ty order_key includes header F Pt Pk PL ND PA US OWN FR AN FL G ns c f t lead id HF ST PI N1 N2.
  pose proof (final_facts_hold o _ _ _ _ _ _ PL FR AN FL) as FF. pose proof (the_pieces _ _ _ _ _ _ _ Pt Pk G) as P.
  apply (po_cpp _ _ _ P) in HF as (x & p & I & GX & HF); [|discriminate]. apply gen_shape in GX as SH.
  assert (X : exists fn pv fa gf, x_kind x = XFunction fn pv (Some fa) /\ gen_function (find_non_pod_types fl) fa = Some gf /\ o_bridge gf = Some f).
  { inversion SH; subst p; cbn [rp_cpp] in HF; try contradiction HF; try (destruct HF as [HF|[]]; discriminate HF).
    - destruct ctx; contradiction HF.
    - cbn in HF. repeat (destruct HF as [HF|HF]; [discriminate HF|]). destruct HF.
    - destruct (o_bridge g) as [bf|] eqn:OB; [|contradiction HF]. destruct HF as [HF|[]]. injection HF as _ _ <-. eauto 8. }
  destruct X as (fn & pv & fa & gf & K & GF & OB). clear SH HF.
  destruct (bridge_paths _ _ _ _ _ _ _ GF OB ST PI) as (IG & u & l' & U & PU).
  destruct (ff_function _ _ _ _ _ FF x _ _ _ I K) as [IR _]. destruct x as [nm kd]. cbn in K. subst kd.
  destruct (function_analysed d l1 r found AN _ _ _ _ IR) as (name & soph & pre & s & s' & Q).
  pose proof (front_own _ _ _ ND OWN FR) as OWN1. pose proof (l1_nodup d l l1 ND FR) as ND1.
  pose proof (signature_names (x_env d l1) _ _ _ _ _ _ _ _ (tds_nodup l1) (placeable_env d l1 ND1 OWN1) Q IG) as SN.
  pose proof (signature_tracked (x_env d l1) _ _ _ _ _ _ _ _ (tds_nodup l1) (placeable_env d l1 ND1 OWN1) Q IG) as TR.
  (* the name *)
  assert (NQ : exists q, qn_item q = id /\ names u q).
  { destruct l' as [|m ns']; [exists (QN [] id); split; [reflexivity|]; exists [], id; split; [exact PU|]; apply ref_plain; assumption|].
    destruct (string_dec m "root") as [->|M1]; [exists (QN ns' id); split; [reflexivity|]; eexists _, _; split; [exact PU|]; apply ref_module; auto|].
    destruct (string_dec m "output") as [->|M2]; [exists (QN ns' id); split; [reflexivity|]; eexists _, _; split; [exact PU|]; apply ref_module; auto|].
    exists (QN (m :: ns') id). split; [reflexivity|]. eexists _, _. split; [exact PU|]. apply ref_plain; assumption. }
  destruct NQ as (q & Eq & NM). clear PU PI ST l'.
  (* the list *)
  assert (KE : exists v, kept d l = Some v /\ fl = map (restore r) (av_apis v)).
  { unfold final_apis, analyzed in FL. rewrite FR, AN in FL. destruct (kept d l) as [v|]; [|discriminate]. injection FL as <-. eauto. }
  destruct KE as (v & KE & ->). unfold kept, analyzed in KE. rewrite FR, AN in KE. unfold pipeline in KE.
  destruct (to_gc _ _ _ _ _ _ _) as [g|] eqn:GC; [|discriminate]. injection KE as <-.
  pose proof (function_kept d l1 r found g AN GC _ _ _ _ I eq_refl IR) as HG.
  assert (NI : ~ ignored (erase d (XA nm (XFunction fn pv (Some fa))))) by (apply not_ignored_is; reflexivity).
  assert (DS : forall z, In z (fa_deps fa) -> depends_on (erase d (XA nm (XFunction fn pv (Some fa)))) z) by (intros z Hz; constructor; exact Hz).
  pose proof (g_wf d l1 r found g AN GC) as W.
  (* types made for subclasses *)
  assert (SUBQ : holder q \/ subclass_name (map (erase d) r) q ->
    told F id \/ subclass_lost (map (restore r) (av_apis (append_ctype_information (ac_builtin (dc_front d)) is_ctype g))) (map (erase d) r) q).
  { intros S. set (fl := map (restore r) _) in *.
    destruct (existsb (fun y => match x_kind y with XSubclass _ => String.eqb (sc_holder (xname y)) id || String.eqb (qn_item (subclass_cpp (xname y))) id | _ => false end) fl) eqn:E.
    - left. apply existsb_exists in E as (y & Hy & E). destruct (x_kind y) eqn:KY; try discriminate E. destruct (po_total _ _ _ P y Hy) as (py & GY). pose proof GY as GY'.
      unfold generate_rs_for_api in GY. rewrite KY in GY. unfold generate_subclass_rs in GY. destruct (generate_subclass _ _ _ _) as [impls|]; [|discriminate].
      apply orb_true_iff in E as [E|E]; apply String.eqb_eq in E; injection GY as EP.
      + right. right. apply (po_rust _ _ _ P). exists y, py. split; [exact Hy|]. split; [exact GY'|]. rewrite <- EP, <- E. left. reflexivity.
      + left. eexists _, _, _. apply (po_cpp _ _ _ P); [discriminate|]. exists y, py. split; [exact Hy|]. split; [exact GY'|]. rewrite <- EP, <- E. left. reflexivity.
    - right. split; [exact S|]. intros y sup Hy KY. rewrite Eq.
      assert (B : (String.eqb (sc_holder (xname y)) id || String.eqb (qn_item (subclass_cpp (xname y))) id)%bool = false).
      { destruct (_ || _)%bool eqn:B; [|reflexivity]. rewrite <- E. symmetry. apply existsb_exists. exists y. split; [exact Hy|]. rewrite KY. exact B. }
      apply orb_false_iff in B as [B1 B2]. apply String.eqb_neq in B1, B2. auto. }
  destruct (SN u q U NM) as [A|H]; [|destruct (SUBQ (or_introl H)); eauto 8].
  destruct (TR u q U NM) as [T|H]; [|destruct (SUBQ (or_introl H)); eauto 8].
  destruct (is_ctype q) eqn:CT.
  { destruct (signature_ctype d l l1 r found g ND PA US OWN FR AN GC o F P _ _ q HG NI DS T CT) as (p' & E & [[TD|UN]|B]).
    - destruct (string_dec (qn_item p') id) as [<-|NE]; [left; exact TD|]. right. exists q. split; [exact Eq|]. right. right. right. right. split; [exact CT|]. exists p'. auto.
    - right. exists q. split; [exact Eq|]. right. right. right. right. split; [exact CT|]. exists p'. auto.
    - right. exists q. split; [exact Eq|]. right. right. right. left. destruct B as (m & B1 & B2). exists m. split; [exact B1|]. right. exists p'. auto. }
  destruct (sig_usable d l l1 r found g ND PA US OWN FR AN GC _ _ q HG NI DS A) as [KN|[S|[(b & B1 & B2 & B3)|(m & B1 & B2)]]].
  - right. exists q. auto.
  - destruct (SUBQ (or_intror S)); eauto 8.
  - destruct (ctypes_keep (ac_builtin (dc_front d)) g b W B1) as [(b' & C1 & C2) _].
    destruct (item_told d r g o F P (restore r b')) as [TD|UN]; [apply in_map, C1| |].
    + left. change (xname (restore r b')) with (aname b') in TD. rewrite C2, B2, Eq in TD. exact TD.
    + right. exists q. split; [exact Eq|]. right. left. exists (restore r b'). split; [apply in_map, C1|]. split; [|exact UN]. change (xname (restore r b')) with (aname b'). congruence.
  - right. exists q. split; [exact Eq|]. right. right. right. left. exists m. split; [exact B1|]. destruct B2 as [->|B2]; [auto|]. right. exists q. auto.
Qed.
Print Assumptions c89_types_partial.

(** ** Cases and refutations *)
Import FrontProps CppGenProps.
(** [struct Foo { int x; }; typedef Foo B; typedef B *A; Foo *f(A a, B *b, int n);] *)
Definition demo16 : list xapi :=
  [named0 "Foo" (XStruct (SD [BF (Some "x") true (TPath [] "i32" [])] false []) None);
   named0 "B" (XTypedef (TdType 0 (rooted "Foo")) None None);
   named0 "A" (XTypedef (TdType 0 (TPtr true (rooted "B"))) None None);
   named0 "f" (XFunction (Func "f" [("a", rooted "A"); ("b", TPtr true (rooted "B")); ("n", TPath ["std"; "os"; "raw"] "c_int" [])] false
     (Some (TPtr true (rooted "Foo"))) None VisPublic None None None None None None) PvOther None)].
Definition demo16_l1 : list xapi := Eval vm_compute in match front (dc_front all) demo16 with OOk r => r | _ => [] end.
Definition demo16_r : list xapi * list (qname * IC.items) := Eval vm_compute in match analyze_functions_x all demo16_l1 with OOk p => p | _ => ([], []) end.
Definition demo16_fl : list xapi := Eval vm_compute in final_of all demo16.
Definition demo16_f : rs_file := Eval vm_compute in match rs_of demo16_fl with Some F => F | None => RsF [] [] [] [] [] end.
Definition demo16_fn : rust_fn := RF true "f"
  (Sig false [WP false "a" (RTy (TPtr true (TPath [] "B" []))); WP false "b" (RTy (TPtr true (TPath [] "Foo" []))); WP false "n" (RTy (TPath [] "c_int" []))]
     (Some (RTy (TPtr true (TPath [] "Foo" []))))) [].
Lemma demo16_ok : Forall (placed ro0) demo16 /\ NoDup (map xname demo16) /\ FrontProps.parsed demo16 /\ uses_named demo16 /\ own_names demo16 /\
  front (dc_front all) demo16 = OOk demo16_l1 /\ analyze_functions_x all demo16_l1 = OOk demo16_r /\ final_apis all demo16 = Some demo16_fl /\
  rs_of demo16_fl = Some demo16_f /\ In (FFn [] None demo16_fn) (rs_cpp demo16_f).
Proof.
  split. { unfold demo16. repeat apply Forall_cons; try apply Forall_nil; split; try discriminate; reflexivity. }
  split; [repeat constructor; cbn; intuition discriminate|]. split; [|split; [|split]].
  - intros x i o a H K. cbn in H. repeat (destruct H as [<-|H]; [cbn in K; congruence|]). destruct H.
  - intros x t o a H K. cbn in H. repeat (destruct H as [<-|H]; [cbn in K; congruence|]). destruct H.
  - intros x H _ (td & K)%known_name_get. cbn in H. repeat (destruct H as [<-|H]; [vm_compute in K; discriminate|]). destruct H.
  - split; [vm_compute; reflexivity|]. split; [vm_compute; reflexivity|]. split; [vm_compute; reflexivity|]. split; [vm_compute; reflexivity|]. vm_compute. in_run.
Qed.
(** The typedef [B] in the second parameter is seen through, the class and the C type are told to cxx, and the hypotheses are met. *)
Example c89_case : (exists fa, In (FFn [] None fa) (rs_cpp demo16_f) /\ sig_types fa (TPtr true (TPath [] "Foo" [])) /\ sig_types fa (TPath [] "c_int" [])) /\
  told demo16_f "Foo" /\ told demo16_f "c_int" /\ NoDup (map fst (tc_typedefs (fe_tc (x_env all demo16_l1)))) /\
  map fst (tc_typedefs (fe_tc (x_env all demo16_l1))) = [q0 "B"; q0 "A"] /\
  snd (convert_type 20 (fe_tc (x_env all demo16_l1)) [] [] OuterType (TPtr true (rooted "B"))) =
    OOk (Ann (TPtr true (TPath ["output"] "Foo" [])) [q0 "B"; q0 "Foo"] [] TkPointer).
Proof.
  split. { exists demo16_fn. split; [apply demo16_ok|]. split; [right; reflexivity|]. left. cbn. auto. }
  split. { left. eexists _, _, _. vm_compute. in_run. } split. { right. left. vm_compute. in_run. }
  split; [vm_compute; repeat constructor; cbn; intuition discriminate|]. split; vm_compute; reflexivity.
Qed.

(** A typedef of a pointer is replaced by that pointer as it was written, so that a typedef within it stays: the function told to cxx takes a pointer
    to the typedef [B], of which cxx is told nothing. *)
Theorem c89_typedef_refuted : exists d l l1 r fl F f q,
  Forall (placed ro0) l /\ NoDup (map xname l) /\ FrontProps.parsed l /\ uses_named l /\ own_names l /\
  front (dc_front d) l = OOk l1 /\ analyze_functions_x d l1 = OOk r /\ final_apis d l = Some fl /\ rs_of fl = Some F /\
  In (FFn [] None f) (rs_cpp F) /\ sig_types f (TPtr true (TPath [] (qn_item q) [])) /\
  (exists x, In x fl /\ xname x = q /\ is_typedef x) /\ ~ known_name q /\ ~ told F (qn_item q).
Proof.
  exists all, demo16, demo16_l1, demo16_r, demo16_fl, demo16_f, demo16_fn, (q0 "B"). destruct demo16_ok as (H1 & H2 & H3 & H4 & H5 & H6 & H7 & H8 & H9 & H10).
  repeat (split; [assumption|]). split; [left; left; reflexivity|].
  split. { eexists. split; [apply (nth_error_In _ 3); vm_compute; reflexivity|]. split; [reflexivity|]. eexists _, _, _. reflexivity. }
  split; [intros (td & K)%known_name_get; vm_compute in K; discriminate|].
  intros [(ns & c & t & H)|[H|H]]; vm_compute in H; repeat (destruct H as [H|H]; [discriminate H|]); destruct H.
Qed.
Print Assumptions c89_typedef_refuted.

(** [class Base { virtual void m(const a::Bad *b) = 0; };] with a Rust subclass; the classes [a::Bad] and [b::Bad] are refused. *)
Definition demo21 : list xapi :=
  [a_class (AN (q0 "Base") None); a_class (AN (QN ["a"] "Bad") None); a_class (AN (QN ["b"] "Bad") None);
   XA (AN (q0 "Base_m") (Some "m")) (XFunction (Func "Base_m" [("this", TPtr true (rooted "Base")); ("b", TPtr false (TPath ["root"; "a"] "Bad" []))] false None (Some VtPure) VisPublic None
     (Some (q0 "Base")) None None None None) PvOther None);
   named0 "Sub" (XSubclass (q0 "Base"))].
Definition demo21_fl : list xapi := Eval vm_compute in final_of all demo21.
Definition demo21_f : rs_file := Eval vm_compute in match rs_of demo21_fl with Some F => F | None => RsF [] [] [] [] [] end.
(** A class which is refused is still named by the Rust function which overrides a pure virtual method taking it: the method itself is refused,
    but the overriding function depends on nothing that its signature names. *)
Theorem c89_override_refuted : exists d l fl F n ts,
  final_apis d l = Some fl /\ rs_of fl = Some F /\
  In (RFn n ts) (rs_rust F) /\ In (TPtr false (TPath [] "Bad" [])) ts /\ ~ told F "Bad" /\
  (exists x e ctx, In x fl /\ xname x = QN ["a"] "Bad" /\ x_kind x = XIgnored e ctx) /\
  (exists x e ctx, In x fl /\ xname x = q0 "m_autocxx_wrapper_0xabc" /\ x_kind x = XIgnored e ctx).
Proof.
  exists all, demo21, demo21_fl, demo21_f. eexists _, _.
  split; [vm_compute; reflexivity|]. split; [vm_compute; reflexivity|]. split; [left; reflexivity|]. split; [right; left; reflexivity|].
  split. { intros [(ns & c & t & H)|[H|H]]; vm_compute in H; repeat (destruct H as [H|H]; [discriminate H|]); destruct H. }
  assert (X : forall q, match find (fun x => qn_eqb (xname x) q) demo21_fl with Some x => match x_kind x with XIgnored _ _ => true | _ => false end | None => false end = true ->
    exists x e ctx, In x demo21_fl /\ xname x = q /\ x_kind x = XIgnored e ctx).
  { generalize demo21_fl. intros fl q. destruct (find _ fl) as [x|] eqn:E; [|discriminate]. apply find_some in E as [I E]. destruct (x_kind x) as [| | | | | | | | | |e ctx| | | | | |] eqn:K; try discriminate. intros _.
    exists x, e, ctx. split; [exact I|]. split; [apply qn_eqb_eq, E|exact K]. }
  split; apply X; vm_compute; reflexivity.
Qed.
Print Assumptions c89_override_refuted.
