(** Facts for C89: what holds of every name in a converted type holds of the names in a signature; C types and typedefs in converted types. *)
From Coq Require Import Relations.
From Verif Require Import Base QNamesModel KnownTypesModel KnownTypesProofs ApiModel NameCheckModel TypesModel TypesSpec
  TypedefsModel TypedefsProofs TypedefsProps CppTypesModel ConcreteNamesModel TypeConverterModel TypeConverterProofs
  TypeConverterProps TypeConverterDepsProps ByValueModel ConversionModel SynthNamesModel TrackersModel FnAnalysisModel FnAnalysisProofs KeptProofs.

(** What a policy may add to a type. *)
Definition added (q : qname) : Prop := q = QN ["cxx"] "UniquePtr" \/ q = QN ["rust"] "Box".
Lemma adds_unique t q : names (make_unique_ptr_type t) q -> names t q \/ added q.
Proof.
  intros (l & id & P & R). inversion P as [| ? ? ? ? ? a Ia Pa | | |]; subst.
  - right. left. apply path_name_refers in R. vm_compute in R. congruence.
  - destruct Ia as [<-|[]]. left. exists l, id. auto.
Qed.
Lemma policy_adds env an mv force soph self pl pol q :
  argument_conversion_details env an mv force soph self pl = Some pol -> names (converted_rust_type pol) q ->
  names (ann_ty an) q \/ added q \/ holder q.
Proof.
  intros H N.
  assert (D : forall t, (forall l id, path_in l id t -> path_in l id (ann_ty an)) -> pol_type pol = t -> names (ann_ty an) q \/ added q \/ holder q).
  { intros t S E. assert (X : names (pol_type pol) q \/ added q).
    { unfold converted_rust_type in N. destruct (pol_cpp pol); auto; [apply adds_unique, N | left; apply (names_ptr _ _ _ N)]. }
    destruct X as [X|X]; [|auto]. left. rewrite E in X. apply (names_sub _ _ _ S X). }
  apply details_cases in H as [(h & sub & _ & F & ->)|[(_ & _ & ->)|H]].
  - cbn in N. destruct N as (l & id & P & R). inversion P as [| ? ? ? ? ? a Ia Pa | | |]; subst.
    + right. left. apply path_name_refers in R. assert (q = QN ["rust"] "Box") as -> by (vm_compute in R; congruence). right. reflexivity.
    + destruct Ia as [<-|[]]. inversion Pa as [| ? ? ? ? ? ? Ib | | |]; subst; [|destruct Ib].
      right. right. exists h, sub. split; [|exact F]. apply path_name_refers in R. rewrite path_name_cases in R. cbn in R.
      destruct (String.eqb h "root"), (String.eqb h "output"); cbn in R; congruence.
  - eapply D; [|reflexivity]. auto.
  - unfold general_conversion in H. destruct (ann_ty an) as [lead id args|m lt e|m e|e n|s|s] eqn:T.
    + destruct (_ && _ && _).
      * destruct args as [|a0 ar]; [discriminate|]. destruct a0; try discriminate. cbn in H. injection H as <-. eapply D; [|reflexivity].
        intros l i P. inversion P; subst. eapply pi_arg; [left; reflexivity|]. constructor. assumption.
      * destruct (path_name lead id); [|discriminate]. policy_cases H; injection H as <-; eapply D; try reflexivity; auto.
    + policy_cases H; injection H as <-; (eapply D; [|reflexivity]); auto. intros l i P. inversion P; subst. constructor. assumption.
    + policy_cases H; injection H as <-; (eapply D; [|reflexivity]); auto. intros l i P. constructor. assumption.
    + injection H as <-. eapply D; [|reflexivity]. auto.
    + injection H as <-. eapply D; [|reflexivity]. auto.
    + injection H as <-. eapply D; [|reflexivity]. auto.
Qed.

Lemma place_spells env ns cs l i m q cs' a p : conv_to env ns cs OuterType (TPtr m (TPath l i [])) cs' a -> path_name l i = Some q ->
  resolve_typedef (tc_typedefs env) q = TdOk None -> is_known_type q = true \/ In q (tc_found env) ->
  names (ann_ty a) p -> p = q \/ p = QN [] "str" \/ exists td, kt_get q = Some td /\ kt_get p = Some td.
Proof.
  intros H N T F NM. inversion H; subst. cbn [ann_ty] in NM. apply names_ptr in NM.
  match goal with K : conv_to _ _ _ WithinReference _ _ _ |- _ => rename K into C end.
  assert (U : forall mk, unwrap_marker mk l i [] = None) by (intros mk; destruct l; reflexivity).
  assert (R : forall b, unwrap_reference b l i [] = None) by (intros b; unfold unwrap_reference; rewrite U; reflexivity).
  inversion C as [? ? ? ? ? ? ? ? U1|? ? ? ? ? ? ? ? ? U1|? ? ? ? ? ? ? ? ? U1|? ? ? ? ? ? a0 b0 _ _ _ _ Pl A| | |]; subst.
  - rewrite !U in U1. destruct U1; discriminate.
  - rewrite R in U1. discriminate.
  - rewrite R in U1. discriminate.
  - assert (Q : forall l1 i1 o, qualify env ns l i = COk (l1, i1) -> path_name l1 i1 = Some o -> o = q).
    { intros l1 i1 o K P. unfold qualify in K. destruct (_ || _); [congruence|]. rewrite N in K. destruct (is_known_type q) eqn:KQ; [congruence|].
      destruct l; [|discriminate]. destruct F as [F|F]; [congruence|]. apply qmem_In in F. rewrite F in K. congruence. }
    assert (NM0 : names (ann_ty a0) p \/ p = QN [] "str").
    { destruct A; auto. right. cbn [ann_ty] in NM. destruct NM as (lx & ix & P & RF). inversion P as [| |? ? ? ? ? P1| |]; subst.
      inversion P1 as [| ? ? ? ? ? ? Ia | | |]; subst; [|destruct Ia]. apply path_name_refers in RF. rewrite path_name_cases in RF. cbn in RF. injection RF as <-. reflexivity. }
    destruct NM0 as [NM0|NM0]; [|auto].
    assert (RS : forall o l1 i1 tn deps rl ri ra, resolves env o l1 i1 [] tn deps rl ri ra -> o = q -> tn = q /\ ra = []).
    { intros o l1 i1 tn deps rl ri ra RR ->. inversion RR; subst; [auto | congruence]. }
    remember [] as no in Pl. destruct Pl as [cs0 c0 lead id args lead1 id1 orig other K1 K2 V B TD NP|
        cs0 c0 lead id args lead1 id1 orig tn deps rl ri l' i' K1 K2 V B Rs S|
        cs0 c0 lead id args lead1 id1 orig tn deps rl ri ra l' i' q1 def cs0' n made K1 K2 V B Rs NE S G M PN QI TC GT|
        cs0 c0 lead id args lead1 id1 orig tn deps rl ri ra l' i' cs0' la d x k K1 K2 V B Rs NE S G AR CP]; subst args;
      pose proof (Q _ _ _ K1 K2) as ->.
    + congruence.
    + cbn [ann_ty] in NM0. destruct (RS _ _ _ _ _ _ _ _ Rs eq_refl) as [-> _]. destruct (resolves_name _ _ _ _ _ _ _ _ _ _ K2 Rs) as (N' & _).
      destruct NM0 as (lx & ix & P & RF). inversion P as [| ? ? ? ? ? ? Ia | | |]; subst; [|destruct Ia].
      assert (SN := substituted_name _ _ _ _ _ _ _ N' S (refers_path_name _ _ _ _ RF)). destruct (kt_get q) as [td|]; [right; right; exists td; split; [reflexivity|apply kt_get_iff; exact SN] | auto].
    + destruct (RS _ _ _ _ _ _ _ _ Rs eq_refl) as [_ ->]. congruence.
    + destruct (RS _ _ _ _ _ _ _ _ Rs eq_refl) as [_ ->]. congruence.
Qed.


(** ** Any property of names *)
Section Holds.
  Variable env : fn_env.
  Variable A : list qname -> qname -> Prop.
  Hypothesis Amono : forall ds ds' q, incl ds ds' -> A ds q -> A ds' q.
  Hypothesis Aconv : forall ns cs c t cs' a q, convert_type (fe_fuel env) (fe_tc env) ns cs c t = (cs', OOk a) -> names (ann_ty a) q -> A (ann_deps a) q.
  Hypothesis Aadd : forall ds q, added q -> A ds q.
  Hypothesis Astr : forall ds, A ds (QN [] "str").
  Hypothesis Aspell : forall ds q p td, kt_get q = Some td -> kt_get p = Some td -> A ds q -> A ds p.

Lemma signature_holds name fn soph pre st st' fa nm :
  NoDup (map fst (tc_typedefs (fe_tc env))) -> placeable env ->
  analyze_foreign_fn env name fn soph pre st = (st', OOk (fa, nm)) -> fa_ignore fa = None ->
  forall t q, In t (map snd (fa_params fa)) \/ fa_ret fa = Some t -> names t q -> A (fa_deps fa) q \/ holder q.
Proof.
  intros ND PL H IG t q W NM. apply analyze_ok in H as (_ & ps0 & bads & ig0 & ps1 & r & ig2 & b0 & kw & PC).
  destruct (not_ignored _ _ _ _ _ _ _ _ _ _ _ _ _ _ PC IG) as (-> & -> & r1 & r2 & CR).
  pose proof (pc_deps _ _ _ _ _ _ _ _ _ _ _ _ _ _ PC) as DEPS.
  destruct (pc_linked _ _ _ _ _ _ _ _ _ _ _ _ _ _ PC) as (s1 & s2 & s3 & s4 & s5 & ideal & static & sty & rc & sec & ctx & _ & CP & HI & HK & FR & _).
  assert (X : ext s2 s4).
  { unfold ext. rewrite (quiet_ok _ _ _ _ (quiet_kind _ _ _ _ _ _ _ _ _) HK), (quiet_ok _ _ _ _ (quiet_ideal _ _ _) HI). apply extends_refl. }
  destruct (receiver_deps _ _ _ _ _ _ _ _ _ _ _ CP X FR) as [_ RD]. clear X HI HK FR.
  (* what a converted argument mentions *)
  assert (ARG : forall vt tr mv force so ctor n t0 u u' p, convert_fn_arg env (qn_ns (an_name name)) vt tr mv force so ctor n t0 u = (u', OOk p) ->
    (names (snd (fst p)) q -> A (a_deps (snd p)) q) /\
    (names (converted_rust_type (a_conv (snd p))) q -> A (a_deps (snd p)) q \/ holder q)).
  { intros vt tr mv force so ctor n t0 u u' p C. apply arg_states in C as (an & t' & _ & CT & D & T & self & pl & CD).
    pose proof (fun q0 => Aconv _ _ _ _ _ _ q0 CT) as AC. rewrite D, T. split.
    - exact (AC q).
    - intros NN. destruct (policy_adds _ _ _ _ _ _ _ _ _ CD NN) as [P|[K|HO]]; [left; exact (AC _ P) | left; apply Aadd, K | right; exact HO]. }
  assert (PS : forall p, In p ps1 -> (names (snd (fst p)) q -> A (fa_deps fa) q) /\
    (names (converted_rust_type (a_conv (snd p))) q -> A (fa_deps fa) q \/ holder q)).
  { intros p I. destruct (RD p I) as (p0 & I0 & D & O).
    assert (INC : incl (a_deps (snd p)) (fa_deps fa)).
    { rewrite DEPS, D. intros z Hz. apply in_or_app. left. apply in_flat_map. eauto. }
    assert (G : (names (snd (fst p)) q -> A (a_deps (snd p)) q) /\
      (names (converted_rust_type (a_conv (snd p))) q -> A (a_deps (snd p)) q \/ holder q)).
    { destruct O as [->|(idx & n & t1 & mv & force & ctor & u1 & u2 & _ & C)]; [|eapply ARG; exact C].
      apply params_states in CP as [_ F2]. clear - ARG F2 I0. induction F2 as [|i p ii pp (u1 & u2 & C & _) F2 IH]; [destruct I0|]; destruct I0 as [->|I0]; [eapply ARG; exact C | apply IH, I0]. }
    destruct G as [G1 G2]. split; [intros NN; apply (Amono _ _ _ INC), G1, NN | intros NN; destruct (G2 NN); [left; eapply Amono; eauto | auto]]. }
  (* the result *)
  assert (RET : incl (r_deps r) (fa_deps fa)) by (rewrite DEPS; apply incl_appr, incl_refl).
  apply convert_return_type_ok in CR.
  assert (PLACE : forall p, r_placement r = Some p -> names (snd (fst p)) q \/ names (converted_rust_type (a_conv (snd p))) q -> A (fa_deps fa) q \/ holder q).
  { intros p E NN. destruct (f_output fn) as [t0|]; [|subst r; discriminate].
    destruct CR as (an & u & HB & [(_ & conv & -> & _)|(l & i & ar & q1 & T & PN & NP & [(IM & _ & p1 & u2 & C & ->)|(_ & ->)])]); try discriminate.
    injection E as ->. destruct (PL _ IM NP) as (TD & FO & GN & PI). apply boxed_ok in HB.
    pose proof (fun q0 => Aconv _ _ _ _ _ _ q0 HB) as AC. apply convert_type_rel in HB.
    destruct (converted_args _ _ _ _ _ _ _ HB _ _ _ _ T PN) as [->|[E|E]]; [|congruence|congruence].
    apply arg_states in C as (an2 & t' & TK & CT & _ & T2 & self & pl & CD). cbn in TK. subst t'. rewrite T in CT. apply convert_type_rel in CT.
    assert (Q : A (fa_deps fa) q1).
    { eapply Amono; [exact RET|]. cbn. apply AC; rewrite T; eexists; eexists; split; [apply pi_here | apply path_name_refers; exact PN]. }
    assert (NA : names (ann_ty an2) q -> A (fa_deps fa) q).
    { intros NA. destruct (place_spells _ _ _ _ _ _ _ _ _ _ CT PN TD FO NA) as [->|[->|(td & K1 & K2)]]; [exact Q | apply Astr | exact (Aspell _ _ _ _ K1 K2 Q)]. }
    rewrite T2 in NN. destruct NN as [NN|NN]; [left; apply NA, NN|].
    destruct (policy_adds _ _ _ _ _ _ _ _ _ CD NN) as [NN'|[K|HO]]; [left; apply NA, NN' | left; apply Aadd, K | right; exact HO]. }
  assert (ALL : forall p, In p (ps1 ++ match r_placement r with Some p => [p] | None => [] end) ->
    names (snd (fst p)) q \/ names (converted_rust_type (a_conv (snd p))) q -> A (fa_deps fa) q \/ holder q).
  { intros p I NN. apply in_app_or in I as [I|I]; [destruct (PS p I) as [P1 P2]; destruct NN; auto|].
    destruct (r_placement r) as [p'|] eqn:E; [|destruct I]. destruct I as [->|[]]. eapply PLACE; eauto. }
  destruct W as [W|W].
  - rewrite (pc_fa_params _ _ _ _ _ _ _ _ _ _ _ _ _ _ PC) in W. destruct (is_some (fa_wrapper fa)).
    + rewrite map_map in W. cbn [snd] in W. apply in_map_iff in W as (pd & <- & I). rewrite (pc_details _ _ _ _ _ _ _ _ _ _ _ _ _ _ PC) in I.
      apply in_map_iff in I as (p & <- & I). apply (ALL p I). auto.
    + rewrite map_map in W. apply in_map_iff in W as (p & <- & I). apply (ALL p I). auto.
  - assert (RT : forall t', r_type r = Some t' \/ (exists pol, r_conv r = Some pol /\ populate_return_value pol = true /\ t' = unconverted_rust_type pol) -> names t' q -> A (r_deps r) q).
    { intros t' E NN. destruct (f_output fn) as [t0|]; [|subst r; destruct E as [E|(? & E & _)]; discriminate].
      destruct CR as (an & u & HB & CR). apply boxed_ok in HB. pose proof (fun q0 => Aconv _ _ _ _ _ _ q0 HB) as AC.
      assert (OK : names (ann_ty an) q \/ added q -> A (ann_deps an) q).
      { intros [P|K]; [exact (AC _ P) | apply Aadd, K]. }
      destruct CR as [(_ & conv & -> & CV)|(l & i & ar & q1 & T & PN & NP & [(IM & _ & p1 & u2 & C & ->)|(_ & ->)])]; cbn [r_type r_conv r_deps] in *.
      - apply OK. destruct E as [E|(pol & E & _ & ->)]; [injection E as ->; auto|]. injection E as ->.
        destruct (_ && _); [|subst; auto]. unfold return_reference_into_wrapper in CV. destruct (ann_ty an) as [lead id args|m lt e|m e|e n|s|s] eqn:T; try discriminate.
        + unfold extract_pinned_mutable_reference_type in CV. destruct args as [|a0 [|a1 ar]]; try discriminate; destruct a0 as [| [|] lt e | | | | ]; try discriminate.
          destruct (is_pin lead id); [|discriminate]. injection CV as <-. left. apply names_ptr in NN. revert NN. apply names_sub. intros l1 i1 P.
          eapply pi_arg; [left; reflexivity | constructor; exact P].
        + injection CV as <-. left. apply names_ptr in NN. revert NN. apply names_sub. intros l1 i1 P. constructor. exact P.
      - destruct E as [E|(pol & E & E2 & _)]; [discriminate|]. injection E as <-. discriminate.
      - apply OK. destruct E as [E|(pol & E & _ & ->)]; [injection E as ->; auto|]. injection E as <-. apply adds_unique. exact NN. }
    left. apply (Amono _ _ _ RET), (RT t); [|exact NM]. rewrite (pc_ret _ _ _ _ _ _ _ _ _ _ _ _ _ _ PC) in W.
    destruct (is_some (fa_wrapper fa)); [|auto]. destruct (r_conv r) as [pol|]; [|auto]. destruct (populate_return_value pol) eqn:PP; [|auto].
    injection W as <-. right. eauto.
Qed.
End Holds.

(** ** C types *)
(** If [q] is a C type, it is among [ds], perhaps by another of its names, or is mentioned by what a typedef among [ds] stands for. *)
Definition tracked (tds : list (qname * ty)) (ds : list qname) (q : qname) : Prop :=
  is_ctype q = true -> (exists p, In p ds /\ kt_get p = kt_get q) \/
  exists al n tgt q', In al ds /\ chain tds al n /\ In (n, tgt) tds /\ names tgt q' /\ kt_get q' = kt_get q.
Lemma tracked_incl tds ds ds' q : incl ds ds' -> tracked tds ds q -> tracked tds ds' q.
Proof.
  intros I H C. destruct (H C) as [(p & P & E)|(al & n & tgt & q' & A & R)]; [left; exists p; auto | right; exists al, n, tgt, q'; auto].
Qed.
Lemma tracked_add tds ds q : added q -> tracked tds ds q.
Proof. intros [->| ->] C; vm_compute in C; discriminate C. Qed.
Lemma tracked_str tds ds : tracked tds ds (QN [] "str").
Proof. intros C; vm_compute in C; discriminate C. Qed.
Lemma tracked_spell tds ds q p td : kt_get q = Some td -> kt_get p = Some td -> tracked tds ds q -> tracked tds ds p.
Proof.
  intros Q P H C. assert (E : kt_get q = kt_get p) by congruence.
  assert (CQ : is_ctype q = true) by (unfold is_ctype, on_behavior in *; rewrite E; exact C).
  destruct (H CQ) as [(p' & P' & E')|(al & n & tgt & q' & A & B & D & N & E')]; [left; exists p'; split; [exact P'|congruence]|].
  right. exists al, n, tgt, q'. repeat (split; [assumption|]). congruence.
Qed.
Lemma type_path_spell n l i ar q : to_type_path n = TPath l i ar -> path_name l i = Some q -> kt_get n = kt_get q.
Proof.
  unfold to_type_path, td_path. destruct (kt_get n) as [td|] eqn:K; intros H P; injection H as <- <- <-.
  - apply kt_get_iff in K as [K1 K2]. symmetry. apply kt_get_iff. split; [exact K1|apply rs_path; assumption].
  - rewrite path_name_cases in P. cbn in P. destruct n; cbn in P. congruence.
Qed.
Lemma conversion_tracked : forall fuel env ns cs c t cs' a q, NoDup (map fst (tc_typedefs env)) ->
  convert_type fuel env ns cs c t = (cs', OOk a) -> names (ann_ty a) q -> tracked (tc_typedefs env) (ann_deps a) q.
Proof.
  intros fuel env ns cs c t cs' a q ND H. apply convert_type_rel in H. revert cs c t cs' a H.
  assert (PIN : forall e d, (names e q -> tracked (tc_typedefs env) d q) -> names (pin_mut e) q -> tracked (tc_typedefs env) d q).
  { intros e d H (l & id & P & R). unfold pin_mut in P. inversion P as [| ? ? ? ? ? a Ia Pa | | | ]; subst.
    - apply path_name_refers in R. rewrite path_name_cases in R. cbn in R. injection R as <-. intros C; vm_compute in C; discriminate C.
    - destruct Ia as [<-|[]]. inversion Pa; subst. apply H. exists l, id. auto. }
  assert (X : (forall cs c t cs' a, conv_to env ns cs c t cs' a -> names (ann_ty a) q -> tracked (tc_typedefs env) (ann_deps a) q) /\
    (forall cs c l i ar cs' a, plain_to env ns cs c l i ar cs' a -> names (ann_ty a) q -> tracked (tc_typedefs env) (ann_deps a) q) /\
    (forall cs ar cs' la d x, args_to env ns cs ar cs' la d x -> forall e, In e la -> names e q -> tracked (tc_typedefs env) d q)).
  { apply conv_mutind.
    - auto.
    - intros cs c lead id args m e cs' i U C IH. cbn. destruct m; [apply PIN; exact IH|].
      intros (l1 & id1 & P & R). inversion P; subst. apply IH. exists l1, id1. auto.
    - intros cs c lead id args m e cs' i U E C IH (l1 & id1 & P & R). cbn in P. inversion P; subst. apply IH. exists l1, id1. auto.
    - intros cs c lead id args cs' a b _ _ _ _ Pl IH A. destruct A; [exact IH | exact IH |].
      intros (l1 & id1 & P & R). cbn in P. inversion P as [| |? ? ? ? ? P1| |]; subst.
      inversion P1 as [| ? ? ? ? ? ? Ia | | |]; subst; [|destruct Ia]. apply path_name_refers in R. rewrite path_name_cases in R. cbn in R. injection R as <-. apply tracked_str.
    - intros cs c m lt e cs' i C IH (l1 & id1 & P & R). cbn in P. inversion P; subst. apply IH. exists l1, id1. auto.
    - intros cs c e n cs' i C IH (l1 & id1 & P & R). cbn in P. inversion P; subst. apply IH. exists l1, id1. auto.
    - intros cs c m e cs' i E C IH (l1 & id1 & P & R). cbn in P. inversion P; subst. apply IH. exists l1, id1. auto.
    - (* other *) intros cs c lead id args lead1 id1 orig other _ _ _ _ Rt _ N _. cbn [ann_ty ann_deps] in *.
      right. pose proof (resolve_correct _ ND orig) as RC. rewrite Rt in RC. destruct RC as ((n & Ch & I) & _).
      exists orig, n, other, q. split; [left; reflexivity|]. auto.
    - (* simple *) intros cs c lead id args lead1 id1 orig tn deps rl ri l' i' _ N _ _ Rs S (lx & ix & P & R) _. cbn [ann_ty ann_deps] in *.
      destruct (resolves_name _ _ _ _ _ _ _ _ _ _ N Rs) as (N' & I1 & I2).
      inversion P as [| ? ? ? ? ? ? Ia | | |]; subst; [|destruct Ia].
      assert (SN := substituted_name _ _ _ _ _ _ _ N' S (refers_path_name _ _ _ _ R)).
      left. exists tn. split; [exact I1|]. destruct (kt_get tn) as [td|] eqn:K; [symmetry; apply kt_get_iff; exact SN | subst; auto].
    - (* concrete *)
      intros cs c lead id args lead1 id1 orig tn deps rl ri ra l' i' q0 def cs' n made _ N _ _ Rs _ S _ _ PN _ _ _ (lx & ix & P & R) _.
      cbn [ann_ty ann_deps] in *. destruct (to_type_path_shape n) as (ln & ni & En). rewrite En in P.
      inversion P as [| ? ? ? ? ? ? Ia | | |]; subst; [|destruct Ia].
      left. exists n. split; [apply qinsert_In; left; reflexivity|]. exact (type_path_spell _ _ _ _ _ En (refers_path_name _ _ _ _ R)).
    - (* generic *)
      intros cs c lead id args lead1 id1 orig tn deps rl ri ra l' i' cs' la d x k _ N _ _ Rs _ S G A IH CP (lx & ix & P & R).
      cbn [ann_ty ann_deps] in *. destruct (resolves_name _ _ _ _ _ _ _ _ _ _ N Rs) as (N' & I1 & I2).
      inversion P as [| ? ? ? ? ? e Ie Pe | | |]; subst.
      + assert (SN := substituted_name _ _ _ _ _ _ _ N' S (refers_path_name _ _ _ _ R)). intros _. left. exists tn. split; [apply in_or_app; left; exact I1|].
        apply generic_known, known_name_get in G. destruct G as (td & G). rewrite G in *. symmetry. apply kt_get_iff. exact SN.
      + eapply tracked_incl; [|apply (IH e Ie); exists lx, ix; auto]. apply incl_appr, incl_refl.
    - intros cs e [].
    - intros cs s r cs' l d x A IH e [<-|Ie]; [intros (l1 & id1 & P & _); inversion P | apply IH, Ie].
    - intros cs a r cs1 i cs' l d x _ C IHC A IHA e [<-|Ie] NM.
      + eapply tracked_incl; [|apply IHC, NM]. apply incl_appl, incl_refl.
      + eapply tracked_incl; [|apply (IHA e Ie), NM]. apply incl_appr, incl_refl. }
  exact (proj1 X).
Qed.

Lemma signature_tracked env name fn soph pre st st' fa nm :
  NoDup (map fst (tc_typedefs (fe_tc env))) -> placeable env ->
  analyze_foreign_fn env name fn soph pre st = (st', OOk (fa, nm)) -> fa_ignore fa = None ->
  forall t q, In t (map snd (fa_params fa)) \/ fa_ret fa = Some t -> names t q -> tracked (tc_typedefs (fe_tc env)) (fa_deps fa) q \/ holder q.
Proof.
  intros ND. apply signature_holds.
  - intros ds ds' q. apply tracked_incl.
  - intros ns cs c t cs' a q. apply conversion_tracked, ND.
  - intros ds q. apply tracked_add.
  - intros ds. apply tracked_str.
  - intros ds q p td. apply tracked_spell.
  - exact ND.
Qed.
