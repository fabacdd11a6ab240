(** C82, C83: what function analysis as a whole makes of the list of APIs. *)
From Verif Require Import Base QNamesModel KnownTypesModel ApiModel ApiVecModel NameCheckModel TypesModel CppTypesModel
  ConcreteNamesModel TypeConverterModel ByValueModel ConversionModel SynthNamesModel TrackersModel FnAnalysisModel
  FnAnalysisProofs SubclassGenModel SubclassGenProps DepthFirstModel FrontModel FrontProofs PipelineModel FnDriverModel FnDriverProofs
  DepthFirstProps TypesSpec.
From Verif Require ImplicitCtorsProofs ImplicitCtorsProps.

(** * C82: what goes in and what comes out *)
Section Accounting.
Variable d : dcfg.
(** What goes in. *)
Variable l : list xapi.
(** The template instantiations met by the analysis, and the special members C++ declares by itself. *)
Variable X : list concrete_api.
Variable ms : list (qname * IC.special_member).
Let env := x_env d l.

Definition is_function (x : xapi) : Prop := exists f pv a, x_kind x = XFunction f pv a.
(** The analysis of one function gave [fa] and the name [nm]; the instantiations made for it are among [X]. *)
Definition analysed (name : api_name) (f : func) (soph : sophistication) (fa : fn_analysis) (nm : api_name) : Prop :=
  exists pre s s', analyze_foreign_fn env name f soph pre s = (s', OOk (fa, nm)) /\ incl (fs_extra s') X.
(** The functions to analyse: those which go in and the special members. *)
Inductive origin : api_name -> func -> Prop :=
| or_source x f pv a : In x l -> x_kind x = XFunction f pv a -> origin (x_info x) f
| or_special q m : In (q, m) ms -> origin (synthetic_name env q m) (synthetic_fn env q m).
Definition subclass_in (sub sup : qname) : Prop := exists x, In x l /\ xname x = sub /\ x_kind x = XSubclass sup.
Definition virtual_in (name : api_name) (f : func) (sup : qname) : Prop :=
  exists fa nm m, analysed name f Regular fa nm /\
    (fa_kind fa = FMethod (MVirtual m) sup \/ fa_kind fa = FMethod (MPureVirtual m) sup).

(** What may come out. *)
Inductive product : xapi -> Prop :=
| pr_same x : In x l -> ~ is_function x -> product x
| pr_function name f fa nm : origin name f -> analysed name f Regular fa nm -> product (XA nm (XFunction f PvOther (Some fa)))
| pr_super name f sup sub name' f' fa nm :
    origin name f -> virtual_in name f sup -> subclass_in sub sup ->
    f_inputs f' = f_inputs f -> f_output f' = f_output f -> f_self_ty f' = Some (subclass_cpp sub) -> f_this f' = Some (subclass_cpp sub) ->
    analysed name' f' SimpleForSubclasses fa nm -> product (XA nm (XFunction f' PvOther (Some fa)))
| pr_override name f sup sub n sf : origin name f -> virtual_in name f sup -> subclass_in sub sup -> sf_super sf = sup ->
    product (XA (AN n None) (XRustSubclassFn sub sf))
| pr_item name f sup sub n m : origin name f -> virtual_in name f sup -> subclass_in sub sup -> sm_receiver m = sup ->
    product (XA (AN n None) (XSubclassTraitItem m))
| pr_ctor n f pv fa b sup sub name' f' triv cpp fa' nm :
    product (XA n (XFunction f pv (Some fa))) -> fa_kind fa = FMethod (MConstructor b) sup -> subclass_in sub sup ->
    f_self_ty f' = Some (subclass_cpp sub) -> List.length (f_inputs f') = S (List.length (f_inputs f)) ->
    analysed name' f' Regular fa' nm -> product (XA nm (XFunction f' (PvSubclassCtor sub triv cpp) (Some fa')))
| pr_concrete n def rs : In (n, def, rs) X -> product (XA (AN n None) (XConcrete def (Some rs))).

(** The whole account: [P] are the products before those of one name are merged. *)
Record account (P r : list xapi) : Prop := {
  ac_settles : settles (dc_front d) P r;
  ac_products : forall y, In y P -> product y;
  ac_same : forall x, In x l -> ~ is_function x -> In x P;
  ac_functions : forall name f, origin name f -> exists fa nm, analysed name f Regular fa nm /\
                   In (XA nm (XFunction f PvOther (Some fa))) P /\
                   forall sub sup m, fa_kind fa = FMethod (MVirtual m) sup \/ fa_kind fa = FMethod (MPureVirtual m) sup ->
                     subclass_in sub sup -> exists n sf, sf_super sf = sup /\ In (XA (AN n None) (XRustSubclassFn sub sf)) P;
  ac_concretes : forall n def rs, In (n, def, rs) X -> In (XA (AN n None) (XConcrete def (Some rs))) P }.

Let subs := filter (fun s => match s with SSubclass _ _ => true | _ => false end) (map to_sapi l).
Lemma subs_in sub sup : In sub (subclasses_of subs sup) <-> subclass_in sub sup.
Proof.
  rewrite subclasses_of_in. unfold subs. rewrite filter_In, in_map_iff. unfold subclass_in. split.
  - intros ((x & E & H) & _). exists x. unfold to_sapi in E. destruct (x_kind x) eqn:K; try discriminate; try (destruct an as [fa|]; discriminate).
    + injection E as <- <-. auto.
  - intros (x & H & E & K). split; [|reflexivity]. exists x. unfold to_sapi. rewrite K, E. auto.
Qed.

Lemma virtual_cases k sup m : virtual_kind k = Some (sup, m) -> k = FMethod (MVirtual m) sup \/ k = FMethod (MPureVirtual m) sup.
Proof. destruct k as [|[]|]; try discriminate; intros E; injection E as <- <-; auto. Qed.

(** The items made for one function. *)
Lemma items_products name f ex st st' l1 ex' : origin name f ->
  analyze_foreign_fn_and_subclasses env subs name f ex st = (st', OOk (l1, ex')) -> incl (fs_extra st') X ->
  (forall s, In s l1 -> product (of_sapi s)) /\
  exists fa nm, analysed name f Regular fa nm /\ In (SFunction nm f fa PvOther) l1 /\
    forall sub sup m, virtual_kind (fa_kind fa) = Some (sup, m) -> subclass_in sub sup ->
      exists n sf, sf_super sf = sup /\ In (SSubclassFn n sub sf) l1.
Proof.
  intros O H XI. unfold analyze_foreign_fn_and_subclasses in H. apply bind_ok in H as (s1 & [fa nm] & H1 & H).
  destruct (virtual_kind (fa_kind fa)) as [[sup m]|] eqn:V.
  - apply bind_ok in H as (s2 & [si nm2] & H2 & H). apply bind_ok in H as (s3 & [l0 ex0] & H3 & H).
    apply ret_ok in H as [-> H]. injection H as -> ->.
    assert (I3 : incl (fs_extra s2) X) by (eapply incl_tran; [apply (grows_ok _ _ _ _ (grows_loop _ _ _ _ _ _ _ _ _) H3) | exact XI]).
    assert (I2 : incl (fs_extra s1) X) by (eapply incl_tran; [apply (grows_ok _ _ _ _ (grows_analyze _ _ _ _ _) H2) | exact I3]).
    assert (AN1 : analysed name f Regular fa nm) by (exists None, st, s1; auto).
    assert (VI : virtual_in name f sup) by (exists fa, nm, m; split; [exact AN1 | apply virtual_cases, V]).
    assert (L : (forall s, In s l0 -> product (of_sapi s)) /\
                forall sub, In sub (subclasses_of subs sup) -> exists n sf, sf_super sf = sup /\ In (SSubclassFn n sub sf) l0).
    { assert (SI : forall sub, In sub (subclasses_of subs sup) -> subclass_in sub sup) by (intros sub; apply subs_in).
      clear H1 H2. revert SI ex s2 l0 ex0 H3 I3. induction (subclasses_of subs sup) as [|sub rest IH]; intros SI ex s2 l0 ex0 H3 I3; cbn [subclass_loop] in H3.
      - apply ret_ok in H3 as [_ H3]. injection H3 as -> ->. split; [intros s [] | intros sub []].
      - apply bind_ok in H3 as (t1 & [a1 b1] & J1 & H3). apply bind_ok in H3 as (t2 & [a2 b2] & J2 & H3).
        apply ret_ok in H3 as [-> H3]. injection H3 as -> ->.
        assert (T1 : incl (fs_extra t1) X) by (eapply incl_tran; [apply (grows_ok _ _ _ _ (grows_loop _ _ _ _ _ _ _ _ _) J2) | exact XI]).
        destruct (IH (fun s Hs => SI s (or_intror Hs)) _ _ _ _ J2 T1) as [Q1 Q2].
        assert (SB : subclass_in sub sup) by (apply SI; left; reflexivity).
        unfold subclass_items in J1. apply bind_ok in J1 as (t3 & [supers deps] & J3 & J1). apply ret_ok in J1 as [-> J1].
        assert (S1 : forall s, In s supers -> product (of_sapi s)).
        { destruct (is_pure (fa_kind si)); [apply ret_ok in J3 as [_ J3]; injection J3 as -> ->; intros s []|].
          apply bind_ok in J3 as (t4 & [a n] & J4 & J3). apply ret_ok in J3 as [-> J3]. injection J3 as -> ->.
          unfold analyze_and_add in J4. apply bind_ok in J4 as (t5 & [fa' n'] & J5 & J4). apply ret_ok in J4 as [-> J4]. injection J4 as -> ->.
          intros s [<-|[]]. cbn [of_sapi]. eapply pr_super; eauto; try reflexivity. eexists _, _, _. split; [exact J5 | exact T1]. }
        assert (K : (forall s, In s a1 -> product (of_sapi s)) /\ exists n sf, sf_super sf = sup /\ In (SSubclassFn n sub sf) a1).
        { destruct (qmem _ _); injection J1 as -> ->; split.
          - intros s Hs. apply in_app_or in Hs as [Hs|[<-|[]]]; [apply S1, Hs|]. unfold create_subclass_function. cbn [of_sapi]. eapply pr_override; eauto.
          - eexists _, _. split; [|apply in_or_app; right; left; reflexivity]. reflexivity.
          - intros s Hs. apply in_app_or in Hs as [Hs|[<-|[<-|[]]]]; [apply S1, Hs| |].
            + unfold create_subclass_function. cbn [of_sapi]. eapply pr_override; eauto.
            + unfold create_subclass_trait_item. cbn [of_sapi]. eapply pr_item; eauto.
          - eexists _, _. split; [|apply in_or_app; right; left; reflexivity]. reflexivity. }
        destruct K as [K1 (n & sf & K2 & K3)]. split.
        + intros s Hs. apply in_app_or in Hs as [Hs|Hs]; auto.
        + intros s [<-|Hs]; [exists n, sf; split; [exact K2 | apply in_or_app; auto]|].
          destruct (Q2 s Hs) as (n' & sf' & E & I). exists n', sf'. split; [exact E | apply in_or_app; auto]. }
    destruct L as [L1 L2]. split.
    + intros s Hs. apply in_app_or in Hs as [Hs|[<-|[]]]; [apply L1, Hs|]. cbn [of_sapi]. eapply pr_function; eauto.
    + exists fa, nm. split; [exact AN1|]. split; [apply in_or_app; right; left; reflexivity|].
      intros sub sup' m' E SB. rewrite V in E. injection E as <- <-. destruct (L2 sub (proj2 (subs_in _ _) SB)) as (n & sf & E & I).
      exists n, sf. split; [exact E | apply in_or_app; auto].
  - apply ret_ok in H as [-> H]. injection H as -> ->.
    assert (AN1 : analysed name f Regular fa nm) by (eexists None, _, _; split; [exact H1 | exact XI]). split.
    + intros s [<-|[]]. cbn [of_sapi]. eapply pr_function; eauto.
    + exists fa, nm. split; [exact AN1|]. split; [left; reflexivity|]. intros sub sup m E. congruence.
Qed.

Lemma fn_items_products name f ex st st' w ex' : origin name f ->
  fn_items d env subs name f ex st = (st', OOk (w, ex')) -> incl (fs_extra st') X ->
  exists P, settles (dc_front d) P w /\ (forall y, In y P -> product y) /\
  exists fa nm, analysed name f Regular fa nm /\ In (XA nm (XFunction f PvOther (Some fa))) P /\
    forall sub sup m, fa_kind fa = FMethod (MVirtual m) sup \/ fa_kind fa = FMethod (MPureVirtual m) sup ->
      subclass_in sub sup -> exists n sf, sf_super sf = sup /\ In (XA (AN n None) (XRustSubclassFn sub sf)) P.
Proof.
  intros O H XI. unfold fn_items in H. apply bind_ok in H as (s1 & [l1 ex1] & H1 & H). apply ret_ok in H as [-> H]. injection H as -> ->.
  destruct (items_products _ _ _ _ _ _ _ O H1 XI) as [Q (fa & nm & Q1 & Q2 & Q3)].
  exists (map of_sapi l1). split; [apply settles_new|]. split.
  { intros y Hy. apply in_map_iff in Hy as (s & <- & Hs). apply Q, Hs. }
  exists fa, nm. split; [exact Q1|]. split; [apply (in_map of_sapi) in Q2; exact Q2|].
  intros sub sup m E SB. destruct (Q3 sub sup m) as (n & sf & E2 & I); [destruct E as [->| ->]; reflexivity | exact SB|].
  exists n, sf. split; [exact E2|]. apply (in_map of_sapi) in I. exact I.
Qed.

(** The account of a part of the work: the functions with [done] are dealt with. *)
Record part (done : api_name -> func -> Prop) (P : list xapi) : Prop := {
  pt_products : forall y, In y P -> product y;
  pt_functions : forall name f, done name f -> exists fa nm, analysed name f Regular fa nm /\
                   In (XA nm (XFunction f PvOther (Some fa))) P /\
                   forall sub sup m, fa_kind fa = FMethod (MVirtual m) sup \/ fa_kind fa = FMethod (MPureVirtual m) sup ->
                     subclass_in sub sup -> exists n sf, sf_super sf = sup /\ In (XA (AN n None) (XRustSubclassFn sub sf)) P }.
Lemma part_app done1 done2 P Q : part done1 P -> part done2 Q -> part (fun n f => done1 n f \/ done2 n f) (P ++ Q).
Proof.
  intros A B. constructor.
  - intros y H. apply in_app_or in H as [H|H]; [apply (pt_products _ _ A), H | apply (pt_products _ _ B), H].
  - intros n f [H|H]; [apply (pt_functions _ _ A) in H | apply (pt_functions _ _ B) in H]; destruct H as (fa & nm & H1 & H2 & H3);
      exists fa, nm; (split; [exact H1|]); (split; [apply in_or_app; auto|]); intros sub sup m E SB;
      destruct (H3 sub sup m E SB) as (n' & sf & E2 & I); exists n', sf; (split; [exact E2 | apply in_or_app; auto]).
Qed.
Lemma part_impl (done done' : api_name -> func -> Prop) P : (forall n f, done' n f -> done n f) -> part done P -> part done' P.
Proof. intros I A. constructor; [apply (pt_products _ _ A) | intros n f H; apply (pt_functions _ _ A), I, H]. Qed.

Lemma pass_products : forall part_l ex st st' w ex', incl part_l l ->
  fn_pass d env subs part_l ex st = (st', OOk (w, ex')) -> incl (fs_extra st') X ->
  exists P, (forall Q v, settles (dc_front d) Q v -> settles (dc_front d) (Q ++ P) (xextend (dc_front d) v w)) /\
    part (fun n f => exists x pv a, In x part_l /\ x_kind x = XFunction f pv a /\ x_info x = n) P /\
    (forall x, In x part_l -> ~ is_function x -> In x P).
Proof.
  induction part_l as [|x rest IH]; intros ex st st' w ex' IL H XI; cbn [fn_pass] in H.
  - apply ret_ok in H as [-> H]. injection H as -> ->. exists []. split; [intros Q v A; rewrite app_nil_r; exact A|]. split; [|intros x []].
    constructor; [intros y [] | intros n f (x & pv & a & [] & _)].
  - apply bind_ok in H as (s1 & [l1 ex1] & H1 & H). apply bind_ok in H as (s2 & [l2 ex2] & H2 & H). apply ret_ok in H as [-> H]. injection H as -> ->.
    destruct (IH _ _ _ _ _ (fun z Hz => IL z (or_intror Hz)) H2 XI) as (P2 & B1 & B2 & B3).
    assert (I1 : incl (fs_extra s1) X) by (eapply incl_tran; [apply (grows_ok _ _ _ _ (grows_pass _ _ _ _ _) H2) | exact XI]).
    assert (ONE : exists P1, (forall Q v, settles (dc_front d) Q v -> settles (dc_front d) (Q ++ P1) (xextend (dc_front d) v l1)) /\
       part (fun n f => exists pv a, x_kind x = XFunction f pv a /\ x_info x = n) P1 /\ (~ is_function x -> In x P1)).
    { assert (NF : ~ is_function x -> product x) by (intros F; apply pr_same; [apply IL; left; reflexivity | exact F]).
      destruct (x_kind x) as [| | | | f pv a | | | | | | | | | | | |] eqn:K;
        try (apply ret_ok in H1 as [-> H1]; injection H1 as -> ->; exists [x]; split; [intros Q v A; apply settles_app; [exact A | apply settles_one]|];
          split; [|left; reflexivity]; constructor;
          [intros y [<-|[]]; apply NF; intros (f0 & pv0 & a0 & E); congruence | intros n0 f0 (pv0 & a0 & E & _); congruence]).
      destruct (fn_items_products (x_info x) f _ _ _ _ _ (or_source _ _ _ _ (IL x (or_introl eq_refl)) K) H1 I1) as (P1 & A1 & A2 & A3).
      exists P1. split; [intros Q v A; apply settles_app; assumption|]. split; [|intros F; exfalso; apply F; exists f, pv, a; exact K].
      constructor; [exact A2|]. intros n f0 (pv0 & a0 & E & <-). injection E as <- <- <-. exact A3. }
    destruct ONE as (P1 & A1 & A2 & A3). exists (P1 ++ P2). split; [|split].
    + intros Q v A. rewrite app_assoc, xextend_app. apply B1, A1, A.
    + eapply part_impl; [|apply (part_app _ _ _ _ A2 B2)]. cbv beta. intros n f (z & pv & a & [<-|Hz] & E1 & E2); [left; eauto | right; exists z, pv, a; auto].
    + intros z [<-|Hz] F; apply in_or_app; auto.
Qed.

Lemma members_products : forall part_ms P0 apis ex st st' w, incl part_ms ms -> settles (dc_front d) P0 apis ->
  add_members d env subs part_ms apis ex st = (st', OOk w) -> incl (fs_extra st') X ->
  exists P, settles (dc_front d) (P0 ++ P) w /\
    part (fun n f => exists q m, In (q, m) part_ms /\ n = synthetic_name env q m /\ f = synthetic_fn env q m) P.
Proof.
  induction part_ms as [|[q m] rest IH]; intros P0 apis ex st st' w IL A H XI; cbn [add_members] in H.
  - apply ret_ok in H as [-> ->]. exists []. rewrite app_nil_r. split; [exact A|]. constructor; [intros y [] | intros n f (q & m & [] & _)].
  - apply bind_ok in H as (s1 & [l1 ex1] & H1 & H).
    assert (I1 : incl (fs_extra s1) X) by (eapply incl_tran; [apply (grows_ok _ _ _ _ (grows_members _ _ _ _ _ _) H) | exact XI]).
    destruct (fn_items_products _ _ _ _ _ _ _ (or_special _ _ (IL _ (or_introl eq_refl))) H1 I1) as (P1 & A1 & A2 & A3).
    destruct (IH (P0 ++ P1) _ _ _ _ _ (fun z Hz => IL z (or_intror Hz)) (settles_app _ _ _ _ _ A A1) H XI) as (P2 & B1 & B2).
    exists (P1 ++ P2). rewrite app_assoc. split; [exact B1|].
    assert (B0 : part (fun n f => n = synthetic_name env q m /\ f = synthetic_fn env q m) P1) by
      (constructor; [exact A2 | intros n f (-> & ->); exact A3]).
    eapply part_impl; [|apply (part_app _ _ _ _ B0 B2)]. cbv beta.
    intros n f (q' & m' & [E|Hz] & E1 & E2); [injection E as <- <-; left; auto | right; exists q', m'; auto].
Qed.

Lemma ctor_shape sub fa sup c f f' n pv : create_subclass_constructor sub fa sup c f = Some (f', n, pv) ->
  f_self_ty f' = Some (subclass_cpp sub) /\ List.length (f_inputs f') = S (List.length (f_inputs f)) /\ exists t p, pv = PvSubclassCtor sub t p.
Proof.
  unfold create_subclass_constructor. destruct (f_inputs f) as [|[a []] r]; try discriminate. intros E. injection E as <- _ <-. cbn. eauto 6.
Qed.
Lemma sub_ctors_products P0 apis st st' w : settles (dc_front d) P0 apis -> (forall y, In y P0 -> product y) ->
  sub_ctors d env subs apis st = (st', OOk w) -> incl (fs_extra st') X ->
  exists P, settles (dc_front d) (P0 ++ P) w /\ forall y, In y P -> product y.
Proof.
  intros A PR H XI. unfold sub_ctors in H. apply bind_ok in H as (s1 & c & H1 & H). apply ret_ok in H as [-> ->].
  exists (map of_sapi c). split; [apply settles_app; [exact A | apply settles_new]|].
  set (all := filter (fun s => match s with SSubclass _ _ => false | _ => true end) (map to_sapi apis)) in *.
  assert (F : forall n f fa pv, In (SFunction n f fa pv) (all ++ subs) -> product (XA n (XFunction f pv (Some fa)))).
  { intros n f fa pv H. apply in_app_or in H as [H|H]; [|apply filter_In in H as [_ H]; discriminate].
    apply filter_In in H as [H _]. apply in_map_iff in H as (x & E & H).
    assert (Ex : x = XA n (XFunction f pv (Some fa))).
    { unfold to_sapi in E. destruct x as [i k]. cbn in E. destruct k; try discriminate. destruct an; try discriminate. injection E as -> -> -> ->. reflexivity. }
    subst x. apply PR. apply (se_in _ _ _ A) in H as [H|(m & E2 & _)]; [exact H | discriminate]. }
  assert (SU : forall sub sup, In sub (subclasses_of (all ++ subs) sup) -> subclass_in sub sup).
  { intros sub sup H. apply subs_in. apply subclasses_of_in in H. apply subclasses_of_in. apply in_app_or in H as [H|H]; [|exact H].
    apply filter_In in H as [_ H]. discriminate. }
  assert (G : forall rest s s1 c, incl rest (all ++ subs) -> subclass_constructors env (all ++ subs) rest s = (s1, OOk c) ->
     incl (fs_extra s1) X -> forall a, In a c -> product (of_sapi a)).
  { clear c H1 XI. induction rest as [|a rest IH]; intros s s2 c IL H XI; cbn [subclass_constructors] in H.
    - apply ret_ok in H as [-> ->]. intros a [].
    - apply bind_ok in H as (t1 & l1 & J1 & H). apply bind_ok in H as (t2 & l2 & J2 & H). apply ret_ok in H as [-> ->].
      pose proof (IH _ _ _ (fun z Hz => IL z (or_intror Hz)) J2 XI) as R2. intros b Hb. apply in_app_or in Hb as [Hb|Hb]; [|apply R2, Hb].
      assert (T1 : incl (fs_extra t1) X) by (eapply incl_tran; [apply (grows_ok _ _ _ _ (grows_ctors _ _ _) J2) | exact XI]).
      destruct a as [n fn fa pv| | | | |]; try (apply ret_ok in J1 as [_ ->]; destruct Hb).
      assert (PF := F _ _ _ _ (IL _ (or_introl eq_refl))).
      destruct (fa_kind fa) as [|mk q|] eqn:K; try (apply ret_ok in J1 as [_ ->]; destruct Hb).
      destruct mk; try (apply ret_ok in J1 as [_ ->]; destruct Hb).
      destruct (has_destructor _ q); [|apply ret_ok in J1 as [_ ->]; destruct Hb].
      assert (SU' : forall sub, In sub (subclasses_of (all ++ subs) q) -> subclass_in sub q) by (intros sub; apply SU).
      revert SU' s t1 l1 b J1 Hb T1 J2. induction (subclasses_of (all ++ subs) q) as [|sub ss IH2]; intros SU' s t1 l1 b J1 Hb T1 J2; cbn [ctors_for] in J1.
      + apply ret_ok in J1 as [_ ->]. destruct Hb.
      + destruct (create_subclass_constructor sub fa q (to_cpp_name q) fn) as [[[f' name] pv']|] eqn:CS; [|discriminate].
        apply bind_ok in J1 as (u1 & [a nm] & K1 & J1). apply bind_ok in J1 as (u2 & r & K2 & J1). apply ret_ok in J1 as [-> ->].
        assert (U1 : incl (fs_extra u1) X) by (eapply incl_tran; [apply (grows_ok _ _ _ _ (grows_ctors_for _ _ _ _ _) K2) | exact T1]).
        destruct Hb as [<-|Hb]; [|eapply (IH2 (fun z Hz => SU' z (or_intror Hz))); eauto].
        unfold analyze_and_add in K1. apply bind_ok in K1 as (u3 & [fa' n'] & K3 & K1). apply ret_ok in K1 as [-> K1]. injection K1 as -> ->.
        apply ctor_shape in CS as (C1 & C2 & t & p & ->). cbn [of_sapi].
        eapply pr_ctor; [exact PF | exact K | apply SU'; left; reflexivity | exact C1 | exact C2 |]. eexists _, _, _. split; [exact K3 | exact U1]. }
  intros y Hy. apply in_map_iff in Hy as (a & <- & Ha). eapply G; [apply incl_refl | exact H1 | exact XI | exact Ha].
Qed.
End Accounting.

Lemma account_parts d l st r found : analyze_functions_m d l (x_start l) = (st, OOk (r, found)) ->
  exists P0 rest r1, account d l (fs_extra st) (IC.synthesized (dc_exclude_impls d) (dc_ctor_blocked d) found) (P0 ++ rest) r /\
    settles (dc_front d) P0 r1 /\ x_constructors r1 = Some found /\
    forall x f pv a, In x l -> x_kind x = XFunction f pv a ->
      exists fa nm, analysed d l (fs_extra st) (x_info x) f Regular fa nm /\ In (XA nm (XFunction f PvOther (Some fa))) P0.
Proof.
  intros H. unfold analyze_functions_m in H. apply bind_ok in H as (s1 & [l1 ex] & H1 & H). cbv zeta in H.
  apply bind_ok in H as (s2 & fd & H2 & H). apply bind_ok in H as (s3 & r2 & H3 & H). apply bind_ok in H as (s4 & r3 & H4 & H).
  injection H as E1 E2 E3. subst s4 r fd. apply of_option_ok in H2 as [XC ->].
  set (ms := IC.synthesized (dc_exclude_impls d) (dc_ctor_blocked d) found) in *.
  assert (I3 : incl (fs_extra s3) (fs_extra st)) by (apply (grows_ok _ _ _ _ (grows_sub_ctors _ _ _ _) H4)).
  assert (I1 : incl (fs_extra s1) (fs_extra st)) by (eapply incl_tran; [apply (grows_ok _ _ _ _ (grows_members _ _ _ _ _ _) H3) | exact I3]).
  destruct (pass_products d l (fs_extra st) ms l [] _ _ _ _ (incl_refl l) H1 I1) as (P1 & A1 & A2 & A3).
  pose proof (A1 [] [] (settles_nil _)) as S1. cbn [app] in S1.
  destruct (members_products d l (fs_extra st) ms ms _ _ _ _ _ _ (incl_refl _) S1 H3 I3) as (P2 & B1 & B2).
  pose proof (part_app _ _ _ _ _ _ _ _ A2 B2) as C2.
  destruct (sub_ctors_products d l (fs_extra st) ms _ _ _ _ _ (settles_collect _ _ _ B1) (pt_products _ _ _ _ _ _ C2) H4 (incl_refl _)) as (P3 & D1 & D2).
  set (E := map of_concrete (fs_extra st)) in *.
  exists P1, ((P2 ++ P3) ++ E), (xextend (dc_front d) [] l1). split; [|split; [exact S1|]; split; [exact XC|]].
  2:{ intros x f pv a Hx K. destruct (pt_functions _ _ _ _ _ _ A2 (x_info x) f) as (fa & nm & D3 & D4 & _); [exists x, pv, a; auto|].
      exists fa, nm. auto. }
  replace (P1 ++ (P2 ++ P3) ++ E) with (((P1 ++ P2) ++ P3) ++ E) by (rewrite !app_assoc; reflexivity). constructor.
  - apply settles_app; [exact D1 | apply settles_new].
  - intros y Hy. apply in_app_or in Hy as [Hy|Hy]; [apply in_app_or in Hy as [Hy|Hy]; [apply (pt_products _ _ _ _ _ _ C2), Hy | apply D2, Hy]|].
    apply in_map_iff in Hy as ([[n def] rs] & <- & Hc). apply pr_concrete, Hc.
  - intros x Hx NF. repeat (apply in_or_app; left). apply A3; assumption.
  - intros name f O.
    assert (DN : exists fa nm, analysed d l (fs_extra st) name f Regular fa nm /\ In (XA nm (XFunction f PvOther (Some fa))) (P1 ++ P2) /\
      forall sub sup m, fa_kind fa = FMethod (MVirtual m) sup \/ fa_kind fa = FMethod (MPureVirtual m) sup ->
        subclass_in l sub sup -> exists n sf, sf_super sf = sup /\ In (XA (AN n None) (XRustSubclassFn sub sf)) (P1 ++ P2)).
    { apply (pt_functions _ _ _ _ _ _ C2). destruct O as [x f pv a Hx K | q m Hq]; [left; exists x, pv, a; auto | right; exists q, m; auto]. }
    destruct DN as (fa & nm & D3 & D4 & D5). exists fa, nm. split; [exact D3|]. split; [do 2 (apply in_or_app; left); exact D4|].
    intros sub sup m E0 SB. destruct (D5 sub sup m E0 SB) as (n & sf & E1 & I). exists n, sf. split; [exact E1|]. do 2 (apply in_or_app; left). exact I.
  - intros n def rs Hc. apply in_or_app. right. apply (in_map of_concrete) in Hc. exact Hc.
Qed.


(** C82. Everything which goes into function analysis is in the result, and everything in the result has a reason: an API which is
    no function is there unchanged, every function there was analysed from one which went in, from a special member, or for a
    subclass, except that several products of one name are replaced by one entry. *)
Theorem c82_account : forall d l st r found, analyze_functions_m d l (x_start l) = (st, OOk (r, found)) ->
  exists P, account d l (fs_extra st) (IC.synthesized (dc_exclude_impls d) (dc_ctor_blocked d) found) P r.
Proof. intros d l st r found H. destruct (account_parts _ _ _ _ _ H) as (P0 & rest & _ & A & _). exists (P0 ++ rest). exact A. Qed.
Print Assumptions c82_account.

(** C82, for the reader of the result: each name once; nothing there but products and entries for clashes; under the name of each
    API which went in and is no function, and of each function analysed, there is an entry. *)
Theorem c82_result : forall d l st r found, analyze_functions_m d l (x_start l) = (st, OOk (r, found)) ->
  let ms := IC.synthesized (dc_exclude_impls d) (dc_ctor_blocked d) found in
  NoDup (map xname r) /\
  (forall y, In y r -> product d l (fs_extra st) ms y \/ exists c, y = XA (AN (xname y) None) (XIgnored EDuplicateItems c)) /\
  (forall x, In x l -> ~ is_function x -> exists y, In y r /\ xname y = xname x) /\
  (forall name f, origin d l ms name f -> exists fa nm y, analysed d l (fs_extra st) name f Regular fa nm /\ In y r /\ xname y = an_name nm) /\
  (forall n def rs, In (n, def, rs) (fs_extra st) -> exists y, In y r /\ xname y = n).
Proof.
  intros d l st r found H ms. destruct (c82_account _ _ _ _ _ H) as (P & A). fold ms in A. pose proof (ac_settles _ _ _ _ _ _ A) as S0.
  assert (NM : forall x, In x P -> exists y, In y r /\ xname y = xname x).
  { intros x Hx. apply (in_map xname), (se_names _ _ _ S0), in_map_iff in Hx as (y & E & Hy). eauto. }
  split; [apply (se_nodup _ _ _ S0)|]. split; [|split; [|split]].
  - intros y Hy. apply (se_in _ _ _ S0) in Hy as [Hy|(n & -> & _)]; [left; apply (ac_products _ _ _ _ _ _ A), Hy | right; eexists; reflexivity].
  - intros x Hx NF. apply NM, (ac_same _ _ _ _ _ _ A); assumption.
  - intros name f O. destruct (ac_functions _ _ _ _ _ _ A name f O) as (fa & nm & AN1 & I & _). destruct (NM _ I) as (y & Hy & E).
    exists fa, nm, y. auto.
  - intros n def rs Hc. destruct (NM _ (ac_concretes _ _ _ _ _ _ A _ _ _ Hc)) as (y & Hy & E). exists y. auto.
Qed.
Print Assumptions c82_result.

(** * C83: special members *)

(** The declarations in whose presence C++ does not declare the special member by itself, as the analysis sees them. *)
Definition declares (m : IC.special_member) (q : qname) (f : func) (fa : fn_analysis) : Prop :=
  let copy := fa_kind fa = FTraitMethod TCopyConstructor q in
  let move := fa_kind fa = FTraitMethod TMoveConstructor q in
  match m with
  | IC.SmDefault => copy \/ move \/ exists b, fa_kind fa = FMethod (MConstructor b) q /\ f_special f <> Some SmAssign
  | IC.SmCopy => copy \/ move
  | IC.SmMove => copy \/ move \/ fa_kind fa = FTraitMethod TDestructor q
  | IC.SmDtor => fa_kind fa = FTraitMethod TDestructor q
  end.

Lemma kind_excluded fns ex u q k f : IC.find_explicit_items fns [] [] = Some (ex, u) -> In f fns -> IC.sf_for f = q ->
  IC.contributes f = Some (IC.CoKind k) -> IC.eget q k ex <> None.
Proof.
  intros FE I E C. rewrite (ImplicitCtorsProofs.fei_eget _ _ _ _ _ q k FE). cbn [IC.eget].
  assert (J : In f (filter (ImplicitCtorsProofs.of_kind q k) fns)).
  { apply filter_In. split; [exact I|]. unfold ImplicitCtorsProofs.of_kind. rewrite C, E, qn_eqb_refl. destruct k; reflexivity. }
  destruct (filter _ fns) as [|g t]; [destruct J|]. cbn [ImplicitCtorsProofs.found_of].
  generalize (ImplicitCtorsProofs.single g). clear.
  induction t as [|g' t IH]; intros e; cbn; [discriminate | apply IH].
Qed.

Lemma eget_existsb q k (ex : IC.explicits) p : p k = true -> IC.eget q k ex <> None ->
  existsb (fun e => qn_eqb (fst (fst e)) q && p (snd (fst e))) ex = true.
Proof.
  intros K E. destruct (IC.eget q k ex) as [e|] eqn:G; [|contradiction]. apply ImplicitCtorsProofs.eget_In in G.
  apply existsb_exists. exists ((q, k), e). split; [exact G|]. cbn. rewrite qn_eqb_refl. exact K.
Qed.
Definition excluders (m : IC.special_member) : list IC.ekind :=
  match m with
  | IC.SmDefault => [IC.EkDefault; IC.EkConstCopy; IC.EkMove; IC.EkOther]
  | IC.SmMove => [IC.EkMove; IC.EkConstCopy; IC.EkDtor]
  | IC.SmCopy => [IC.EkConstCopy; IC.EkMove]
  | IC.SmDtor => [IC.EkDtor]
  end.
Lemma implicit_absent ex u enums a s i m k : IC.items_of ex u enums a s = Some i -> ImplicitCtorsProps.claimed m i = true ->
  In k (excluders m) -> IC.eget (IC.ic_name s) k ex = None.
Proof.
  unfold IC.items_of. destruct (IC.fields_items enums a (IC.ic_fields s)) as [fo|]; [|discriminate].
  assert (EX : forall o, IC.exists_implicit (IC.is_explicit o) = false) by (intros [[]|]; reflexivity).
  assert (AB : forall n k0, IC.absent ex n k0 = true -> IC.eget n k0 ex = None) by (intros n k0; unfold IC.absent; destruct (IC.eget n k0 ex); [discriminate | reflexivity]).
  assert (U : Some (IC.explicits_only ex (IC.ic_name s)) = Some i -> ImplicitCtorsProps.claimed m i = true -> In k (excluders m) -> IC.eget (IC.ic_name s) k ex = None).
  { intros E. injection E as <-. destruct m; cbn; unfold IC.implicit_default_needed, IC.implicit_move_needed, IC.implicit_copy_needed, IC.implicit_dtor_needed; cbn; rewrite ?EX; cbn; try discriminate.
    intros C [<-|[]]. destruct (IC.eget (IC.ic_name s) IC.EkDtor ex) as [[]|]; try discriminate; reflexivity. }
  destruct (IC.get_all enums a (IC.ic_bases s)) as [b|]; [|exact U]. destruct fo as [fl|]; [|exact U]. destruct (qmem (IC.ic_name s) u); [exact U|]. clear U.
  intros E. injection E as <-. destruct m; cbn [ImplicitCtorsProps.claimed]; unfold IC.implicit_default_needed, IC.implicit_move_needed, IC.implicit_copy_needed, IC.implicit_dtor_needed; cbn [IC.i_default IC.i_dtor IC.i_ccopy IC.i_nccopy IC.i_move].
  - unfold IC.default_constructor. cbv zeta. destruct (IC.absent ex (IC.ic_name s) IC.EkDefault) eqn:A1; cbn [andb]; [|rewrite EX; discriminate].
    destruct (existsb _ ex) eqn:X; cbn [negb]; [rewrite EX; discriminate|]. intros _ I.
    destruct I as [<-|I]; [apply AB, A1|]. destruct (IC.eget (IC.ic_name s) k ex) eqn:G; [|reflexivity]. exfalso.
    rewrite (eget_existsb (IC.ic_name s) k ex (fun k => match k with IC.EkConstCopy | IC.EkNonConstCopy | IC.EkMove | IC.EkOther => true | _ => false end)) in X;
      [discriminate | destruct I as [<-|[<-|[<-|[]]]]; reflexivity | congruence].
  - unfold IC.move_constructor. cbv zeta. destruct (forallb (IC.absent ex (IC.ic_name s)) _) eqn:F; [|rewrite EX; discriminate].
    intros _ I. apply AB. rewrite forallb_forall in F. apply F. destruct I as [<-|[<-|[<-|[]]]]; cbn; tauto.
  - unfold IC.copy_constructors. cbv zeta. destruct (IC.absent ex (IC.ic_name s) IC.EkConstCopy && IC.absent ex (IC.ic_name s) IC.EkNonConstCopy) eqn:A1; [|cbn; rewrite !EX; discriminate].
    apply andb_prop in A1 as [A1 _]. destruct (IC.absent ex (IC.ic_name s) IC.EkMove) eqn:A2; [|cbn; discriminate].
    intros _ [<-|[<-|[]]]; apply AB; assumption.
  - unfold IC.destructor. destruct (IC.absent ex (IC.ic_name s) IC.EkDtor) eqn:A1; [|rewrite EX; discriminate].
    intros _ [<-|[]]. apply AB, A1.
Qed.
Lemma found_source ex u enums : forall structs a res q i, IC.find_all ex u enums structs a = Some res -> In (q, i) res ->
  In (q, i) a \/ exists s a', In s structs /\ IC.ic_name s = q /\ IC.ic_considered s = true /\ IC.items_of ex u enums a' s = Some i.
Proof.
  induction structs as [|s rest IH]; cbn [IC.find_all]; intros a res q i F I; [injection F as <-; left; exact I|].
  destruct (IC.ic_considered s) eqn:C.
  - destruct (IC.items_of ex u enums a s) as [i0|] eqn:IT; [|discriminate]. destruct (qget (IC.ic_name s) a); [discriminate|].
    destruct (IH _ _ _ _ F I) as [J|(s0 & a' & J & J2)]; [|right; exists s0, a'; split; [right; exact J | exact J2]].
    apply in_app_or in J as [J|[J|[]]]; [left; exact J|]. injection J as <- <-. right. exists s, a. split; [left; reflexivity | auto].
  - destruct (IH _ _ _ _ F I) as [J|(s0 & a' & J & J2)]; [left; exact J | right; exists s0, a'; split; [right; exact J | exact J2]].
Qed.
Lemma synthesized_nodup b blocked res : NoDup (map fst res) -> NoDup (IC.synthesized b blocked res).
Proof.
  unfold IC.synthesized. destruct b; [constructor|]. induction res as [|[q i] res IH]; intros N; [constructor|]. cbn [map fst flat_map snd] in *.
  inversion N as [|? ? N1 N2]; subst. apply NoDup_app_intro; [| apply IH, N2 |].
  - destruct (blocked _); [constructor|].
    destruct (IC.implicit_default_needed i), (IC.implicit_move_needed i), (IC.implicit_copy_needed i), (IC.implicit_dtor_needed i); cbn;
      repeat (constructor; [cbn; intuition congruence|]); constructor.
  - intros [q' m] I1 I2. assert (q' = q).
    { destruct (blocked _); [destruct I1|]. repeat (apply in_app_or in I1; destruct I1 as [I1|I1]);
        match type of I1 with In _ (if ?c then _ else _) => destruct c end; try destruct I1 as [I1|[]]; try (destruct I1; fail); congruence. }
    subst q'. apply N1. apply in_flat_map in I2 as ([q2 i2] & I2 & I3). cbn [fst snd] in I3.
    assert (q = q2).
    { destruct (blocked _); [destruct I3|]. repeat (apply in_app_or in I3; destruct I3 as [I3|I3]);
        match type of I3 with In _ (if ?c then _ else _) => destruct c end; try destruct I3 as [I3|[]]; try (destruct I3; fail); congruence. }
    subst q2. apply (in_map fst) in I2. exact I2.
Qed.
Lemma synthesized_allowed b blocked res q m : In (q, m) (IC.synthesized b blocked res) -> b = false /\ blocked (to_cpp_name q) = false.
Proof.
  unfold IC.synthesized. destruct b; [intros []|]. intros H. split; [reflexivity|]. apply in_flat_map in H as ([q' i] & _ & H). cbn [fst snd] in H.
  destruct (blocked (to_cpp_name q')) eqn:B; [destruct H|].
  repeat (apply in_app_or in H; destruct H as [H|H]);
    match type of H with In _ (if ?c then _ else _) => destruct c end; try destruct H as [H|[]]; try (destruct H; fail); congruence.
Qed.

(** C83. A special member is added for a struct which went in, unless the configuration forbids it, at most once, and only if no
    function which went in declares it or rules it out: such a function can only be one whose entry was lost to a clash of
    names. *)
Theorem c83_members_added_once : forall d l st r found, analyze_functions_m d l (x_start l) = (st, OOk (r, found)) ->
  let ms := IC.synthesized (dc_exclude_impls d) (dc_ctor_blocked d) found in
  NoDup ms /\
  exists P0 rest, account d l (fs_extra st) ms (P0 ++ rest) r /\
    (forall x f pv a, In x l -> x_kind x = XFunction f pv a ->
       exists fa nm, analysed d l (fs_extra st) (x_info x) f Regular fa nm /\ In (XA nm (XFunction f PvOther (Some fa))) P0) /\
    forall q m, In (q, m) ms ->
      dc_exclude_impls d = false /\ dc_ctor_blocked d (to_cpp_name q) = false /\
      (exists s sd pa, In s l /\ xname s = q /\ x_kind s = XStruct sd (Some pa)) /\
      forall y f pv fa, In y P0 -> x_kind y = XFunction f pv (Some fa) -> declares m q f fa -> 2 <= occurs (xname y) P0.
Proof.
  intros d l st r found H ms. destruct (account_parts _ _ _ _ _ H) as (P0 & rest & r1 & A & S1 & XC & F). fold ms in A.
  unfold x_constructors in XC. destruct (fields_and_bases_first xapi xname x_fbdeps r1) as [o| |] eqn:FB; [|discriminate|discriminate].
  destruct (c03_dependencies_first _ _ _ _ _ (se_nodup _ _ _ S1) FB) as [PM _].
  unfold IC.find_constructors_present in XC. destruct (IC.find_explicit_items _ [] []) as [[ex u]|] eqn:FE; [|discriminate].
  split; [apply synthesized_nodup, (ImplicitCtorsProps.nodup_find _ _ _ _ _ _ XC); constructor|].
  exists P0, rest. split; [exact A|]. split; [exact F|]. intros q m I.
  destruct (synthesized_allowed _ _ _ _ _ I) as [B1 B2]. split; [exact B1|]. split; [exact B2|].
  destruct (ImplicitCtorsProps.synthesized_claimed _ _ _ _ _ I) as (i & Ii & C).
  destruct (found_source _ _ _ _ _ _ _ _ XC Ii) as [[]|(s & a' & Is & Ns & _ & IT)].
  apply in_flat_map in Is as (x & Ix & Is). unfold to_ic_struct in Is. destruct (x_kind x) as [| | | | | | | |sd [pa|]| | | | | | | |] eqn:K; try (destruct Is; fail). destruct Is as [Is|[]].
  subst s. cbn [IC.ic_name] in Ns. split.
  - exists x, sd, pa. split; [|auto]. apply (Permutation_in _ PM), (se_in _ _ _ S1) in Ix as [Ix|(n & E & _)]; [|rewrite E in K; discriminate].
    assert (PX : product d l (fs_extra st) ms x) by (apply (ac_products _ _ _ _ _ _ A), in_or_app; auto).
    inversion PX; subst; try discriminate; assumption.
  - intros y f pv fa Iy Ky D. destruct (Nat.le_gt_cases 2 (occurs (xname y) P0)) as [L|L]; [exact L|]. exfalso.
    assert (O : occurs (xname y) P0 = 1) by (pose proof (proj1 (occurs_pos _ _) (in_map xname _ _ Iy)); lia).
    assert (R1 : In y r1) by (apply (se_keep _ _ _ S1); assumption).
    assert (KK : forall k, In k (excluders m) -> forall g, In g (to_sm_fn y) -> IC.sf_for g = q -> IC.contributes g <> Some (IC.CoKind k)).
    { intros k Ik g Ig Eg Cg. apply (kind_excluded _ _ _ q k g FE); [apply in_flat_map; eauto | exact Eg | exact Cg|].
      rewrite <- Ns. apply (implicit_absent _ _ _ _ _ _ m k IT C Ik). }
    unfold to_sm_fn in KK. rewrite Ky in KK. unfold declares in D.
    destruct m; cbn [excluders] in KK;
      repeat match type of D with _ \/ _ => destruct D as [D|D] end; try (destruct D as (b & D & NA)); rewrite D in KK; cbv zeta in KK.
    + apply (KK IC.EkConstCopy ltac:(cbn; tauto) _ (or_introl eq_refl)); reflexivity.
    + apply (KK IC.EkMove ltac:(cbn; tauto) _ (or_introl eq_refl)); reflexivity.
    + apply (KK (if b then IC.EkDefault else IC.EkOther) ltac:(destruct b; cbn; tauto) _ (or_introl eq_refl)); [reflexivity|].
      unfold IC.contributes. cbn [IC.sf_kind IC.sf_assign]. destruct (f_special f) as [[]|]; try contradiction; destruct b; reflexivity.
    + apply (KK IC.EkConstCopy ltac:(cbn; tauto) _ (or_introl eq_refl)); reflexivity.
    + apply (KK IC.EkMove ltac:(cbn; tauto) _ (or_introl eq_refl)); reflexivity.
    + apply (KK IC.EkDtor ltac:(cbn; tauto) _ (or_introl eq_refl)); reflexivity.
    + apply (KK IC.EkConstCopy ltac:(cbn; tauto) _ (or_introl eq_refl)); reflexivity.
    + apply (KK IC.EkMove ltac:(cbn; tauto) _ (or_introl eq_refl)); reflexivity.
    + apply (KK IC.EkDtor ltac:(cbn; tauto) _ (or_introl eq_refl)); reflexivity.
Qed.
Print Assumptions c83_members_added_once.

Lemma last_char a b x y : a +++ String x "" = b +++ String y "" -> x = y.
Proof.
  revert b. induction a as [|c a IH]; intros [|d b] H; cbn in H.
  - congruence.
  - injection H as _ H. destruct b; discriminate.
  - injection H as _ H. destruct a; discriminate.
  - injection H as _ H. eapply IH, H.
Qed.
(** The name C++ calls the class by in its own scope: the last part of its name. *)
Definition inner_name (env : fn_env) (q : qname) : string := match qget q (fe_nested env) with Some s => s | None => qn_item q end.

(** C83. What is added becomes the implementation of the trait it is added for, of that type, or its default constructor. A copy
    constructor becomes an ordinary constructor if its parameter could not be converted to a reference. For the default
    constructor the name of the class must be none Rust reserves: see below. *)
Theorem c83_member_kinds : forall env q m soph pre st st' fa nm, kt_get q = None ->
  analyze_foreign_fn env (synthetic_name env q m) (synthetic_fn env q m) soph pre st = (st', OOk (fa, nm)) ->
  match m with
  | IC.SmDefault => (exists c h, fe_hash env = h +++ String c "" /\ c <> "_"%char) -> tc_reserved (fe_tc env) (inner_name env q) = false ->
      fa_kind fa = FMethod (MConstructor true) q
  | IC.SmMove => fa_kind fa = FTraitMethod TMoveConstructor q
  | IC.SmCopy => fa_kind fa = FTraitMethod TCopyConstructor q \/ fa_kind fa = FMethod (MConstructor false) q
  | IC.SmDtor => fa_kind fa = FTraitMethod TDestructor q
  end.
Proof.
  intros env q m soph pre st st' fa nm NK H. destruct m.
  all: apply analyze_ok in H as (_ & ps0 & bads & ig0 & ps1 & r & ig2 & b0 & kw & PC);
    destruct (pc_linked _ _ _ _ _ _ _ _ _ _ _ _ _ _ PC) as (s1 & s2 & s3 & s4 & s5 & ideal & static & sty & rc & sec & ctx & -> & CP & HI & K & _);
    apply convert_params_ok in CP as (CP & _).
  all: match type of K with fn_kind_and_name _ _ _ _ _ _ ?self _ _ _ = _ => assert (E : self = Some q) end.
  1,3,5,7: destruct (flat_map (fun p => match a_self (snd p) with Some s => [s] | None => [] end) ps0) as [|[q' rm] t] eqn:FM; [reflexivity|]; cbn [hd_error];
    assert (J : In (q', rm) ((q', rm) :: t)) by (left; reflexivity); rewrite <- FM in J; apply in_flat_map in J as (p & Ip & J);
    destruct (CP _ Ip) as (n & ty & t1 & t2 & In1 & CA); pose proof CA as CB; apply convert_fn_arg_ok in CB as (an & t' & AS);
    assert (TH : n = "this") by (apply (as_self _ _ _ _ _ _ _ _ _ _ _ _ AS); destruct (a_self (snd p)); [discriminate | destruct J]);
    subst n; unfold convert_fn_arg in CA; cbn [String.eqb Ascii.eqb Bool.eqb] in CA; apply bind_ok in CA as (u1 & [[n' t0] self] & CA & CC);
    apply bind_ok in CA as (u2 & [t3 st3] & CA & CD); apply ret_ok in CD as [_ CD]; injection CD as -> -> ->;
    apply bind_ok in CC as (u3 & an' & _ & CC); apply bind_ok in CC as (u4 & cv & _ & CC); apply ret_ok in CC as [_ ->]; cbn [snd a_self] in J;
    destruct J as [J|[]]; subst st3;
    assert (ty = TPtr true (to_type_path q)) as -> by (clear - In1; unfold synthetic_fn, f_inputs, sm_inputs in In1; cbv zeta in In1; cbn [In] in In1; repeat (destruct In1 as [In1|In1]; [congruence|]); destruct In1);
    unfold to_type_path in CA; rewrite NK in CA; cbn [this_details unwrap_marker f_this synthetic_fn] in CA; apply bind_ok in CA as (u5 & q2 & CA & CE); apply of_option_ok in CA as [CA _];
    apply ret_ok in CE as [_ CE]; rewrite path_name_cases in CA; cbn in CA; destruct q; cbn in CA; congruence.
  all: rewrite E in K; unfold fn_kind_and_name in K; cbn [trait_creation_details f_trait synthetic_fn f_special sm_special] in K;
    apply bind_ok in K as (u1 & tr & K1 & K); apply ret_ok in K1 as [_ ->].
  2-4: apply bind_ok in K as (u2 & n & _ & K); apply ret_ok in K as [_ K]; injection K as K _ _.
  - intros (c & h & EH & NC) NR.
    assert (ID : ideal = inner_name env q).
    { unfold ideal_rust_name in HI. cbn [synthetic_name synthetic_fn an_cpp f_ident] in HI. fold (inner_name env q) in HI.
      destruct (ends_with "_" _) eqn:EW.
      - exfalso. unfold synthetic_member_name, uniquify_name_per_mod in EW. rewrite EH in EW. apply ends_with_spec in EW as (t & ET).
        rewrite <- !sapp_assoc in ET. apply last_char in ET. congruence.
      - apply bind_ok in HI as (w & kw1 & HI & HR). unfold rust_keyword in HI. destruct (tc_lexes _ _); [|discriminate HI]. apply ret_ok in HI as [_ ->].
        rewrite NR in HR. apply ret_ok in HR as [_ ->]. reflexivity. }
    subst ideal. fold (inner_name env q) in K.
    assert (CS : constructor_with_suffix (inner_name env q) (inner_name env q) = Some "").
    { unfold constructor_with_suffix. assert (SP : forall x, strip_prefix x x = Some "") by (induction x as [|a x IH]; cbn; [reflexivity | rewrite Ascii.eqb_refl; exact IH]).
      rewrite SP. reflexivity. }
    rewrite CS in K. apply bind_ok in K as (u3 & [mk n0] & K1 & K). apply ret_ok in K1 as [_ K1]. injection K1 as -> ->.
    apply bind_ok in K as (u4 & n & _ & K). apply ret_ok in K as [_ K]. injection K as K _ _. exact K.
  - exact K.
  - match type of K with _ = (if ?b then _ else _) => destruct b end; auto.
  - exact K.
Qed.
Print Assumptions c83_member_kinds.

(** * A case *)
From Verif Require FrontProps.
Import FrontProps FnDriverModel.
Definition dd : dcfg := DC demo_cfg AllFunctionsSafe false false (fun _ => false) "0xabc" false (fun _ => "t").
Definition meth (n : string) (r : option ty) : xkind :=
  XFunction (Func n [("this", TPtr true (rooted "Base"))] false r (Some VtVirtual) VisPublic None (Some (q0 "Base")) None None None None) PvOther None.
(** [class Base] with a virtual method, [class Derived : public Base], an alias, a function using both, a vector and an
    instantiation of a template, an item already refused, and a Rust subclass of [Base]. *)
Definition demo2 : list xapi :=
  [named0 "Base" (XStruct (SD [BF (Some "x") true (TPath [] "i32" [])] false []) None);
   named0 "Derived" (XStruct (SD [BF (Some "_base") true (rooted "Base")] false []) None);
   named0 "Alias" (type_of "Base"); XA (AN (q0 "Base_m") (Some "m")) (meth "Base_m" None);
   named0 "free" (XFunction (Func "free" [("a", rooted "Alias"); ("b", TPath ["root"; "std"] "vector" [TPath [] "u8" []]);
     ("c", TPath ["root"] "Tmpl" [rooted "Base"])] false (Some (rooted "Derived")) None VisPublic None None None None None None) PvOther None);
   named0 "Tmpl" (XStruct (SD [] false ["T"]) None); named0 "Bad" (XIgnored (EOther "Bad") None); named0 "Sub" (XSubclass (q0 "Base"))].
Definition demo2_front : list xapi := match front demo_cfg demo2 with OOk r => r | _ => [] end.
Definition demo2_run := Eval vm_compute in analyze_functions_m dd demo2_front (x_start demo2_front).
Definition demo2_r : list xapi := match snd demo2_run with OOk (r, _) => r | _ => [] end.
Definition demo2_found : list (qname * IC.items) := match snd demo2_run with OOk (_, f) => f | _ => [] end.
Lemma demo2_runs : analyze_functions_m dd demo2_front (x_start demo2_front) = (fst demo2_run, OOk (demo2_r, demo2_found)).
Proof. vm_compute. reflexivity. Qed.
Example c82_case : map (fun x => qn_item (xname x)) demo2_r =
  ["Base_autocxx_alloc_autocxx_wrapper_0xabc"; "Base_autocxx_free_autocxx_wrapper_0xabc"; "Base"; "cast_Derived_to_Base_autocxx_wrapper_0xabc";
   "Derived_autocxx_alloc_autocxx_wrapper_0xabc"; "Derived_autocxx_free_autocxx_wrapper_0xabc"; "Derived"; "Alias"; "m_super";
   "Sub_m_autocxx_wrapper_0xabc"; "Base_m_trait_item"; "m_autocxx_wrapper_0xabc"; "free_autocxx_wrapper_0xabc";
   "Tmpl_autocxx_alloc_autocxx_wrapper_0xabc"; "Tmpl_autocxx_free_autocxx_wrapper_0xabc"; "Tmpl"; "Bad";
   "SubCpp_autocxx_alloc_autocxx_wrapper_0xabc"; "SubCpp_autocxx_free_autocxx_wrapper_0xabc"; "Sub"; "new_autocxx_autocxx_wrapper_0xabc";
   "new_synthetic_move_ctor_0xabc_autocxx_wrapper_0xabc"; "new_synthetic_const_copy_ctor_0xabc_autocxx_wrapper_0xabc";
   "Base_synthetic_destructor_0xabc_autocxx_wrapper_0xabc"; "Derived_new_autocxx_autocxx_wrapper_0xabc";
   "Derived_new_synthetic_move_ctor_0xabc_autocxx_wrapper_0xabc"; "Derived_new_synthetic_const_copy_ctor_0xabc_autocxx_wrapper_0xabc";
   "Derived_synthetic_destructor_0xabc_autocxx_wrapper_0xabc"; "SubCpp_new_autocxx_autocxx_wrapper_0xabc"; "Tmpl_Base_AutocxxConcrete"] /\
  map (fun c => fst (fst c)) (fs_extra (fst demo2_run)) = [q0 "Tmpl_Base_AutocxxConcrete"].
Proof. split; vm_compute; reflexivity. Qed.
(** All four special members of both classes are added; analysing the destructor succeeds; and what declares a destructor rules
    the implicit one out: with an explicit destructor of [Base] the analysis adds neither it nor a move constructor. *)
Definition dtor_of_base : xapi :=
  XA (AN (q0 "Base_dtor") (Some "Base_dtor"))
    (XFunction (Func "Base_dtor" [("this", TPtr true (rooted "Base"))] false None None VisPublic (Some SmDtor) (Some (q0 "Base")) None None None None) PvOther None).
Definition members (l : list xapi) : list (qname * IC.special_member) :=
  match front demo_cfg l with
  | OOk l1 => match analyze_functions_x dd l1 with OOk (_, found) => IC.synthesized false (fun _ => false) found | _ => [] end
  | _ => []
  end.
Example c83_case :
  members demo2 = flat_map (fun q => map (pair q) [IC.SmDefault; IC.SmMove; IC.SmCopy; IC.SmDtor]) [q0 "Base"; q0 "Derived"] /\
  members (dtor_of_base :: demo2) = [(q0 "Base", IC.SmDefault); (q0 "Base", IC.SmCopy);
    (q0 "Derived", IC.SmDefault); (q0 "Derived", IC.SmCopy); (q0 "Derived", IC.SmDtor)] /\
  (exists st fa nm, analyze_foreign_fn (x_env dd demo2_front) (synthetic_name (x_env dd demo2_front) (q0 "Base") IC.SmDtor)
     (synthetic_fn (x_env dd demo2_front) (q0 "Base") IC.SmDtor) Regular None (x_start demo2_front) = (st, OOk (fa, nm)) /\
     fa_kind fa = FTraitMethod TDestructor (q0 "Base")) /\ kt_get (q0 "Base") = None.
Proof.
  split; [vm_compute; reflexivity|]. split; [vm_compute; reflexivity|]. split; [|reflexivity].
  do 3 eexists. split; [vm_compute; reflexivity | reflexivity].
Qed.

(** A class nested in another and called by a word Rust reserves, [struct Base { struct type {}; };]: its default constructor is
    taken for a method called [type_]. *)
Definition nested_type : list xapi :=
  [named0 "Base" (XStruct (SD [BF (Some "x") true (TPath [] "i32" [])] false []) None);
   XA (AN (q0 "Base_type") (Some "Base::type")) (XStruct (SD [BF (Some "x") true (TPath [] "i32" [])] false []) None)].
Definition dd_type : dcfg :=
  DC (AC (fun _ => false) (fun _ => false) (fun _ => false) (fun _ => true) [] [] [] (fun _ => true) (fun s => String.eqb s "type") (fun _ => false)
        (fun _ => None) 50) AllFunctionsSafe false false (fun _ => false) "0xabc" false (fun _ => "t").
Definition type_run := Eval vm_compute in analyzed dd_type nested_type.
(** C83 fails for that class: what is added for it as a default constructor is analysed as an ordinary method called [type_], whose
    wrapper calls a C++ method that does not exist, and the class has no default constructor. *)
Theorem c83_reserved_class_name_refuted : exists d l l1 r found q,
  front (dc_front d) l = OOk l1 /\ analyze_functions_x d l1 = OOk (r, found) /\
  In (q, IC.SmDefault) (IC.synthesized (dc_exclude_impls d) (dc_ctor_blocked d) found) /\ kt_get q = None /\
  (exists x f pv fa, In x r /\ x_kind x = XFunction f pv (Some fa) /\ f_special f = Some SmDefault /\ f_self_ty f = Some q /\
     fa_kind fa = FMethod MNormal q /\ fa_rust fa = "type_" /\ fa_ignore fa = None) /\
  forall x f pv fa, In x r -> x_kind x = XFunction f pv (Some fa) -> fa_kind fa <> FMethod (MConstructor true) q.
Proof.
  exists dd_type, nested_type, (match front (dc_front dd_type) nested_type with OOk r => r | _ => [] end),
    (match type_run with OOk (r, _) => r | _ => [] end), (match type_run with OOk (_, f) => f | _ => [] end), (q0 "Base_type").
  split; [vm_compute; reflexivity|]. split; [vm_compute; reflexivity|].
  split; [vm_compute; do 10 (try (left; reflexivity); right)|]. split; [reflexivity|].
  set (is_sm := fun x => match x_kind x with XFunction f _ (Some fa) => (match f_special f with Some SmDefault => true | _ => false end) &&
    (match f_self_ty f with Some q' => String.eqb (qn_item q') "Base_type" | _ => false end) | _ => false end).
  split.
  - destruct (find is_sm (match type_run with OOk (r, _) => r | _ => [] end)) as [x|] eqn:F; [|vm_compute in F; discriminate].
    apply find_some in F as F'. destruct F' as [I _]. vm_compute in F. injection F as <-. do 4 eexists. split; [exact I|]. repeat split; reflexivity.
  - assert (B : forallb (fun x => match x_kind x with XFunction _ _ (Some fa) => match fa_kind fa with FMethod (MConstructor true) q' => negb (String.eqb (qn_item q') "Base_type") | _ => true end | _ => true end)
      (match type_run with OOk (r, _) => r | _ => [] end) = true) by (vm_compute; reflexivity).
    intros x f pv fa I K E. apply (proj1 (forallb_forall _ _) B) in I. rewrite K, E in I. discriminate I.
Qed.
Print Assumptions c83_reserved_class_name_refuted.
