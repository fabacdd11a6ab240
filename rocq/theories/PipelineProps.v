(** C58, C75, C76: the passes between function analysis and code generation, together. *)
From Coq Require Import Relations.
From Verif Require Import Base ApiModel ApiSpec ApiVecModel ApiVecProofs ErrorReporterModel ErrorReporterProofs QNamesModel
  DepthFirstModel AbstractTypesModel AbstractTypesProps NameCheckModel NameCheckProofs NameCheckProps
  RemoveIgnoredModel RemoveIgnoredProofs RemoveIgnoredProps GcModel GcProofs GcProps PipelineModel PipelineProofs.

(** ** C75: constructor dependencies *)

(** Specification: a usable function which copies, moves, allocates or frees values of class [q]. *)
Inductive manages (q : qname) : fn_info -> Prop :=
| man_intro f k : fn_kind_of f = FTraitMethod k q -> In k [TCopyConstructor; TMoveConstructor; TAlloc; TDealloc] ->
    fn_ignore f = None -> manages q f.
(** Specification: values of this type can exist on their own: it is not abstract and not a template. *)
Definition instantiable (s : struct_info) : Prop := st_kind s <> Abstract /\ st_num_generics s = 0.

Lemma imp_spec q a : imp q a = true <-> exists i f, a = API i (KFunction f) /\ manages q f.
Proof.
  unfold imp, important_for. destruct a as [i k]. cbn [api_kind_of]. split.
  - destruct k; try discriminate. destruct (fn_kind_of f) as [|mk q'|tk q'] eqn:K; try discriminate.
    destruct tk; try discriminate; destruct (fn_ignore f) eqn:I; try discriminate; intros H; apply qn_eqb_eq in H; subst q';
      exists i, f; (split; [reflexivity|]); (econstructor; [exact K | cbn; auto 6 | exact I]).
  - intros (j & f & E & M). injection E as <- ->. destruct M as [f k' K T I]. rewrite K, I.
    cbn in T. destruct T as [<-|[<-|[<-|[<-|[]]]]]; now apply qn_eqb_eq.
Qed.
Lemma ctors_spec l q d : In d (ctors_in l q) <-> exists i f, In (API i (KFunction f)) l /\ an_name i = d /\ manages q f.
Proof.
  unfold ctors_in. rewrite in_map_iff. split.
  - intros (a & <- & H). apply filter_In in H. destruct H as [H1 H2]. apply imp_spec in H2. destruct H2 as (i & f & -> & M). exists i, f. auto.
  - intros (i & f & H & <- & M). exists (API i (KFunction f)). split; [reflexivity|]. apply filter_In. split; [exact H|]. apply imp_spec. eauto.
Qed.

(** Every struct that can be instantiated is made to depend on exactly the usable functions managing
    its values, every other struct on none, and nothing else about any item changes. *)
Theorem c75_constructor_dependencies :
  forall builtin v, NoDup (map aname (av_apis v)) ->
  (forall i s', In (API i (KStruct s')) (av_apis (decorate_types_with_constructor_deps builtin v)) <->
     exists s, In (API i (KStruct s)) (av_apis v) /\
       st_kind s' = st_kind s /\ st_bases s' = st_bases s /\ st_field_deps s' = st_field_deps s /\
       st_field_def_deps s' = st_field_def_deps s /\ st_num_generics s' = st_num_generics s /\
       exists ds, st_ctor_deps s' = ds /\
         s' = {| st_kind := st_kind s; st_bases := st_bases s; st_field_deps := st_field_deps s;
                 st_field_def_deps := st_field_def_deps s; st_num_generics := st_num_generics s; st_ctor_deps := ds |} /\
         (~ instantiable s -> ds = []) /\
         (instantiable s -> ds = ctors_in (av_apis v) (an_name i))) /\
  (forall a, (forall s, api_kind_of a <> KStruct s) ->
     (In a (av_apis (decorate_types_with_constructor_deps builtin v)) <-> In a (av_apis v))) /\
  (forall q d, In d (ctors_in (av_apis v) q) <->
     exists i f, In (API i (KFunction f)) (av_apis v) /\ an_name i = d /\ manages q f).
Proof.
  intros builtin v N. rewrite (decorate_apis builtin v N). split; [|split; [|intros q d; apply ctors_spec]].
  - intros i s'. rewrite in_map_iff. split.
    + intros (a & E & H). unfold deco in E. destruct a as [j k]. cbn [api_kind_of api_info] in E. destruct k; try discriminate E.
      injection E as -> <-. exists s. split; [exact H|]. cbn. repeat (split; [reflexivity|]). eexists. split; [reflexivity|].
      split; [reflexivity|]. unfold instantiable. destruct (st_kind s), (st_num_generics s); cbn; split; intros X; try reflexivity;
        try (elim X; split; congruence); try (destruct X; congruence).
    + intros (s & H & _ & _ & _ & _ & _ & ds & _ & -> & D1 & D2). exists (API i (KStruct s)). split; [|exact H].
      unfold deco. cbn [api_kind_of api_info]. f_equal. f_equal. unfold set_ctor_deps. f_equal.
      unfold instantiable in *. destruct (st_kind s), (st_num_generics s); cbn; symmetry;
        (apply D2; split; congruence) || (apply D1; intros [X Y]; congruence).
  - intros a NS. rewrite in_map_iff. split.
    + intros (b & E & H). assert (b = a) as ->; [|exact H]. unfold deco in E. destruct b as [j k]. cbn [api_kind_of] in E.
      destruct k; try exact E. subst a. elim (NS _ eq_refl).
    + intros H. exists a. split; [|exact H]. unfold deco. destruct (api_kind_of a) eqn:K; try reflexivity. elim (NS _ eq_refl).
Qed.
Print Assumptions c75_constructor_dependencies.

(** ** C58 *)
Section Pipe.
Variables (builtin lexes reserved : string -> bool) (known : qname -> bool).
Variables (allow : string -> bool) (cpp : qname -> string) (ctype : qname -> bool).
Notation run_gc := (to_gc builtin lexes reserved known allow cpp).
Notation run := (pipeline builtin lexes reserved known allow cpp ctype).

(** The stages of a run. *)
Lemma stages v out : NoDup (map aname (av_apis v)) -> run_gc v = Some out ->
  exists abs l1 l4 l5, checked builtin (av_apis v) abs l1 l4 /\ filter_ignored builtin known l4 = RiDone l5 /\
    NoDup (map aname l5) /\ gc builtin allow cpp l5 = GcDone out.
Proof.
  intros N R. unfold to_gc in R. destruct (mark_types_abstract builtin v) as [v1|] eqn:M; [|discriminate].
  destruct (check_names _ _ _ _) as [v4|] eqn:C; [|discriminate].
  destruct (filter_ignored builtin known (av_apis v4)) as [l5|] eqn:F; [|discriminate].
  destruct (gc builtin allow cpp l5) as [v6|] eqn:G; [|discriminate]. injection R as <-.
  destruct (checked_ok builtin lexes reserved v v1 v4 N M C) as (abs & K). exists abs, (av_apis v1), (av_apis v4), l5.
  split; [exact K|]. split; [exact F|]. split; [|exact G].
  destruct (c08_loses_no_name_and_terminates builtin known (av_apis v4) (ch_nodup _ _ _ _ _ K)) as (o & F' & I & _).
  rewrite F in F'. injection F' as <-. assert (E : map aname l5 = map aname (av_apis v4)).
  { unfold aname. rewrite <- !(map_map api_info an_name). now rewrite I. }
  rewrite E. apply (ch_nodup _ _ _ _ _ K).
Qed.

Theorem c58_unique_names : forall v out, NoDup (map aname (av_apis v)) -> run v = Some out -> NoDup (map aname (av_apis out)).
Proof.
  intros v out N R. unfold pipeline in R. destruct (run_gc v) as [g|] eqn:G; [|discriminate]. injection R as <-.
  destruct (stages v g N G) as (abs & l1 & l4 & l5 & _ & _ & N5 & E). destruct (gc_spec builtin allow cpp l5 g N5 E) as [W _].
  apply (av_wf_extend builtin g _ W).
Qed.

(** Every API kept was asked for, or is needed by one that was, through APIs that are all kept. *)
Theorem c58_reachable : forall v out a, NoDup (map aname (av_apis v)) -> run_gc v = Some out ->
  In a (av_apis out) -> wanted allow cpp (av_apis out) a.
Proof.
  intros v out a N R H. destruct (stages v out N R) as (abs & l1 & l4 & l5 & _ & _ & N5 & E).
  destruct (gc_spec builtin allow cpp l5 out N5 E) as [_ S]. apply wanted_reach. apply S in H.
  induction H as [a Ha Hr|a b Ra IH Hb Hd].
  - apply reach_root; [apply S, reach_root; auto | exact Hr].
  - eapply reach_dep; [exact IH | apply S; eapply reach_dep; eauto | exact Hd].
Qed.

(** Specification: every type an item needs is built in or is some item, other than a function,
    that the analysis knows of. *)
Definition types_exist (l : list api) : Prop :=
  forall a d, In a l -> depends_on a d ->
    known d = true \/ exists b, In b l /\ aname b = d /\ forall f, api_kind_of b <> KFunction f.

Lemma kept_name v abs l1 l4 b : checked builtin v abs l1 l4 -> In b v -> (forall f, api_kind_of b <> KFunction f) ->
  exists b', In b' l4 /\ api_info b' = api_info b.
Proof.
  intros K Hb NF. assert (H1 : In (marked builtin abs b) l1).
  { rewrite (ch_l1 _ _ _ _ _ K). apply in_map, filter_In. split; [exact Hb|]. unfold keep. destruct (api_kind_of b); try reflexivity. now elim (NF f). }
  destruct (Forall2_in_l _ _ _ _ (ch_l4 _ _ _ _ _ K) H1) as (b' & H2 & H3 & _). exists b'. split; [exact H2|]. now rewrite H3, marked_info.
Qed.
(** What a surviving item depends on. *)
Lemma dep_origin v abs l1 l4 b d : checked builtin v abs l1 l4 -> In b l4 -> ~ ignored b -> depends_on b d ->
  (exists a, In a v /\ api_info a = api_info b /\ depends_on a d) \/ (exists c, In c l4 /\ aname c = d).
Proof.
  intros K Hb Hi Hd. destruct (Forall2_in_r _ _ _ b (ch_l4 _ _ _ _ _ K) Hb) as (x & Hx & Ix & [E|(e & E)]);
    [|subst b; elim Hi; constructor].
  rewrite (ch_l1 _ _ _ _ _ K) in Hx. apply in_map_iff in Hx. destruct Hx as (a & Ea & Ha). apply filter_In in Ha. destruct Ha as [Ha _].
  assert (CT : forall q, In d (ctors_in l1 q) -> exists c, In c l4 /\ aname c = d).
  { intros q H. unfold ctors_in in H. apply in_map_iff in H. destruct H as (c & <- & H). apply filter_In in H. destruct H as [H _].
    destruct (Forall2_in_l _ _ _ c (ch_l4 _ _ _ _ _ K) H) as (c' & H1 & H2 & _). exists c'. split; [exact H1|]. unfold aname. now rewrite H2. }
  assert (ST : forall i s, b = deco l1 (API i (KStruct s)) -> api_info a = i -> (forall k, st_kind s = Pod -> k = s -> api_kind_of a = KStruct k) ->
     (exists a, In a v /\ api_info a = api_info b /\ depends_on a d) \/ (exists c, In c l4 /\ aname c = d)).
  { intros i s Eb Ia Ka. unfold deco in Eb. cbn [api_kind_of api_info] in Eb. rewrite Eb in Hd. apply depends_on_deps in Hd.
    unfold deps in Hd. cbn [api_kind_of set_ctor_deps st_kind st_field_deps st_bases st_ctor_deps] in Hd.
    assert (CD : In d (if match st_kind s with Abstract => true | _ => false end || Nat.ltb 0 (st_num_generics s) then [] else ctors_in l1 (aname (API i (KStruct s)))) ->
       exists c, In c l4 /\ aname c = d) by (destruct (_ || _); [intros [] | apply CT]).
    destruct (st_kind s) eqn:KS; try (right; apply CD; exact Hd). apply in_app_or in Hd.
    assert (A : a = API i (KStruct s)) by (destruct a as [ia ka]; cbn in *; subst ia; now rewrite (Ka s eq_refl eq_refl)).
    destruct Hd as [Hd|Hd]; [left; exists a; split; [exact Ha|]; split; [rewrite Eb, A; reflexivity|]; rewrite A; now apply dep_pod_field|].
    apply in_app_or in Hd. destruct Hd as [Hd|Hd]; [left; exists a; split; [exact Ha|]; split; [rewrite Eb, A; reflexivity|]; rewrite A; now apply dep_pod_base | right; now apply CD]. }
  destruct (marked_cases builtin abs a) as [M|[(s & M1 & M2 & M)|(s & M1 & M)]]; rewrite M in Ea.
  - subst x. destruct (api_kind_of a) eqn:KA.
    1-4, 6-8, 10-17: assert (b = a) as -> by (rewrite E; unfold deco, disc; rewrite !KA; reflexivity); left; exists a; auto.
    + assert (deco l1 a = a) as X by (unfold deco; now rewrite KA). rewrite X in E. unfold disc in E. rewrite KA in E.
      destruct (fn_ignore f) as [[e c]|]; [subst b; elim Hi; constructor|]. subst b. left. exists a. auto.
    + apply (ST (api_info a) s); [|reflexivity|intros k _ ->; reflexivity]. rewrite E. destruct a as [ia ka]. cbn in KA. subst ka. reflexivity.
  - subst x. apply (ST (api_info a) (set_abstract s)); [|reflexivity|intros k KP; discriminate KP]. rewrite E. reflexivity.
  - subst x. rewrite E in Hi. elim Hi. constructor.
Qed.

(** C58. If every type mentioned exists, an API that is kept and not reported as an error needs only
    built-in types and APIs that are kept and not reported as errors. Partial: without the hypothesis it
    is false, see below, and so it is for the Holder types of subclasses, which are not items. *)
Theorem c58_no_ignored_dependency_partial : forall v out, NoDup (map aname (av_apis v)) -> types_exist (av_apis v) ->
  run_gc v = Some out -> forall a d, In a (av_apis out) -> ~ ignored a -> depends_on a d ->
  known d = true \/ exists b, In b (av_apis out) /\ ~ ignored b /\ aname b = d.
Proof.
  intros v out N T R a d Ha Hi Hd. destruct (stages v out N R) as (abs & l1 & l4 & l5 & K & F & N5 & E).
  assert (X : forall a d, In a l4 -> depends_on a d -> known d = true \/ exists b, In b l4 /\ aname b = d).
  { intros x e Hx He. assert (Hxi : ~ ignored x) by (intros X; destruct X; inversion He).
    destruct (dep_origin _ _ _ _ x e K Hx Hxi He) as [(y & Hy & _ & Y)|(c & Hc & Y)]; [|right; eauto].
    destruct (T y e Hy Y) as [B|(b & B1 & <- & B3)]; [auto|]. right. destruct (kept_name _ _ _ _ b K B1 B3) as (b' & C1 & C2).
    exists b'. split; [exact C1|]. unfold aname. now rewrite C2. }
  destruct (c07_closed_input builtin known l4 (ch_nodup _ _ _ _ _ K)) as (o & F' & _ & NI & OL).
  { intros x e Hx He. destruct (X x e Hx He) as [Y|Y]; [left | right; left]; exact Y. }
  rewrite F in F'. injection F' as <-.
  destruct (c08_loses_no_name_and_terminates builtin known l4 (ch_nodup _ _ _ _ _ K)) as (o & F' & I & _ & _).
  rewrite F in F'. injection F' as <-.
  destruct (c05_keeps_exactly_reachable builtin allow cpp l5 out N5 E) as [G _]. apply G in Ha. destruct Ha as [Ha Wa].
  destruct (OL a) as [OL1 _]. destruct (OL1 (conj Ha Hi)) as (Ha4 & _).
  destruct (X a d Ha4 Hd) as [Y|(b & B1 & <-)]; [auto|]. right.
  assert (B : In (api_info b) (map api_info l5)) by (rewrite I; now apply in_map). apply in_map_iff in B. destruct B as (b' & C1 & C2).
  assert (Nb : aname b' = aname b) by (unfold aname; now rewrite C1). rewrite <- Nb in *.
  exists b'. split; [|split; [apply (NI a b' Ha Hi C2 Hd) | reflexivity]].
  apply G. split; [exact C2|]. destruct Wa as (r & q & W1 & W2 & W3 & W4). exists r, q.
  split; [exact W1|]. split; [exact W2|]. split; [exact W3|]. eapply rt_trans; [exact W4|]. apply rt_step. split; [exact Ha|]. auto.
Qed.

(** A run fails only if marking panics or an identifier is not one. *)
Theorem c58_panics_only : forall v, NoDup (map aname (av_apis v)) ->
  mark_types_abstract builtin v <> None -> (forall a s, In a (av_apis v) -> In s (idents a) -> lexes s = true) ->
  run v <> None.
Proof.
  intros v N M L. unfold pipeline. cut (run_gc v <> None); [destruct (run_gc v); [discriminate | congruence]|]. unfold to_gc.
  destruct (mark_types_abstract builtin v) as [v1|] eqn:MV; [|congruence]. clear M.
  destruct (mark_apis builtin v v1 N MV) as (abs & E1).
  assert (N1 : NoDup (map aname (av_apis v1))) by (rewrite E1; now apply nodup1).
  assert (E2 := decorate_apis builtin v1 N1).
  assert (N2 : NoDup (map aname (av_apis (decorate_types_with_constructor_deps builtin v1))))
    by (rewrite E2, map_names; [exact N1 | apply deco_info]).
  assert (E3 := discard_apis builtin _ N2). rewrite E2, map_map in E3.
  set (v3 := discard_ignored_functions builtin (decorate_types_with_constructor_deps builtin v1)) in *.
  assert (N3 : NoDup (map aname (av_apis v3))).
  { rewrite E3, map_names; [exact N1|]. intros a. now rewrite disc_info, deco_info. }
  destruct (check_names builtin lexes reserved (av_apis v3)) as [v4|] eqn:C.
  - assert (N4 : NoDup (map aname (av_apis v4))).
    { destruct (check_names_apis builtin lexes reserved _ _ N3 C) as [E4 _]. rewrite E4, map_names; [exact N3|].
      intros a. now rewrite out2_name, out1_name. }
    destruct (c08_loses_no_name_and_terminates builtin known (av_apis v4) N4) as (l5 & F & _). rewrite F.
    destruct (c06_always_terminates builtin allow cpp l5) as (o & G). rewrite G. discriminate.
  - exfalso. eapply (c09_panics_only_on_non_identifiers builtin lexes reserved (av_apis v3) N3); [|exact C].
    intros x s Hx Hs. rewrite E3 in Hx. apply in_map_iff in Hx. destruct Hx as (y & <- & Hy). rewrite E1 in Hy.
    apply in_map_iff in Hy. destruct Hy as (z & <- & Hz). apply filter_In in Hz. destruct Hz as [Hz _].
    apply (L z s Hz). clear - Hs. destruct (marked_cases builtin abs z) as [M|[(t & M1 & M2 & M)|(t & M1 & M)]]; rewrite M in Hs.
    + unfold deco, disc in Hs. destruct z as [i k]. cbn [api_kind_of api_info] in Hs. destruct k; try exact Hs.
      revert Hs. cbn [api_kind_of]. destruct (fn_ignore f) as [[e c]|]; cbn; [intros [] | auto].
    + destruct z as [i k]. cbn in M1. subst k. exact Hs.
    + destruct z as [i k]. cbn in M1. subst k. revert Hs. cbn. intros [].
Qed.

(** Every item other than a function that the user lists by its name is there in the end, as itself or
    as the error explaining its absence. *)
Theorem c58_listed_items_present : forall v out a, NoDup (map aname (av_apis v)) -> run_gc v = Some out ->
  In a (av_apis v) -> asked_as a (aname a) -> (forall f, api_kind_of a <> KFunction f) -> allow (cpp (aname a)) = true ->
  exists b, In b (av_apis out) /\ api_info b = api_info a.
Proof.
  intros v out a N R Ha Q NF AL. destruct (stages v out N R) as (abs & l1 & l4 & l5 & K & F & N5 & E).
  destruct (c05_keeps_exactly_reachable builtin allow cpp l5 out N5 E) as [G _].
  assert (M1 : In (marked builtin abs a) l1).
  { rewrite (ch_l1 _ _ _ _ _ K). apply in_map, filter_In. split; [exact Ha|]. unfold keep. destruct (api_kind_of a); try reflexivity. now elim (NF f). }
  assert (AI : forall c e, api_info c = api_info a -> name_for_allowlist (API (api_info c) (KIgnored e (Some (ctx_for_item builtin (qn_item (aname c)))))) = aname a).
  { intros c e I. unfold name_for_allowlist. cbn [api_kind_of]. unfold ctx_for_item, aname. cbn [api_info]. rewrite I.
    destruct (builtin _); [reflexivity|]. destruct (an_name (api_info a)); reflexivity. }
  apply asked_as_name in Q.
  assert (B4 : exists b, In b l4 /\ api_info b = api_info a /\ name_for_allowlist b = aname a /\ forall f, api_kind_of b <> KFunction f).
  { destruct (Forall2_in_l _ _ _ _ (ch_l4 _ _ _ _ _ K) M1) as (b & Hb & Ib & H). rewrite marked_info in Ib. exists b. split; [exact Hb|]. split; [exact Ib|].
    destruct H as [->|(e & ->)]; [|split; [apply AI, marked_info | discriminate]].
    destruct (marked_cases builtin abs a) as [M|[(t & X1 & X2 & M)|(t & X1 & M)]]; rewrite M.
    - unfold deco, disc. destruct a as [i k]. cbn [api_kind_of api_info] in *. destruct k; try (split; [exact Q | exact NF]); [now elim (NF f) | split; [exact Q | discriminate]].
    - split; [|discriminate]. destruct a as [i k]. cbn in X1. subst k. exact Q.
    - split; [|discriminate]. unfold deco, disc. cbn [api_kind_of]. now apply AI. }
  destruct B4 as (b & Hb & Ib & Qb & NFb).
  destruct (filter_ignored_spec builtin known l4 (ch_nodup _ _ _ _ _ K)) as (o & ign & F' & _ & RL & _). rewrite F in F'. injection F' as <-.
  destruct (Forall2_in_l _ _ _ b RL Hb) as (c & Hc & Rc).
  assert (IC : forall e, name_for_allowlist (create_ignore_item builtin b e) = aname a).
  { intros e. unfold create_ignore_item. destruct (api_kind_of b) eqn:KB; try (apply AI; exact Ib). now elim (NFb f). }
  assert (X : api_info c = api_info a /\ name_for_allowlist c = aname a).
  { destruct Rc as [[-> _]|(_ & _ & [(ds & _ & _ & _ & -> & _)|(d & _ & _ & _ & ->)])]; auto. }
  destruct X as [X1 X2]. exists c. split; [|exact X1]. apply G. split; [exact Hc|]. exists c, (aname a).
  split; [exact Hc|]. split; [now apply asked_as_name|]. split; [exact AL | apply rt_refl].
Qed.

(** C75: a class whose values can exist, once kept, comes with everything that copies, moves, allocates
    or frees them. *)
Theorem c75_management_kept : forall v out, NoDup (map aname (av_apis v)) -> types_exist (av_apis v) -> run_gc v = Some out ->
  forall i s j f, In (API i (KStruct s)) (av_apis out) -> instantiable s ->
  In (API j (KFunction f)) (av_apis v) -> manages (an_name i) f -> known (an_name j) = false ->
  In (API j (KFunction f)) (av_apis out).
Proof.
  intros v out N T R i s j f Hs IS Hf Mf Kn. destruct (stages v out N R) as (abs & l1 & l4 & l5 & K & F & N5 & E).
  assert (HD : exists s0, s = set_ctor_deps s0 (ctors_in l1 (an_name i)) /\ In (API i (KStruct s0)) l1 /\ In (API j (KFunction f)) l1).
  { destruct (c05_keeps_exactly_reachable builtin allow cpp l5 out N5 E) as [G _]. apply G in Hs. destruct Hs as [Hs _].
    destruct (filter_ignored_spec builtin known l4 (ch_nodup _ _ _ _ _ K)) as (o & ign & F' & _ & RL & _). rewrite F in F'. injection F' as <-.
    destruct (Forall2_in_r _ _ _ _ RL Hs) as (b & Hb & Rb). apply rel_ignored in Rb; [|reflexivity]. subst b.
    destruct (Forall2_in_r _ _ _ _ (ch_l4 _ _ _ _ _ K) Hb) as (x & Hx & _ & [Ex|(e & Ex)]); [|discriminate Ex].
    destruct x as [ix kx]. unfold deco, disc in Ex. cbn [api_kind_of api_info] in Ex. destruct kx; try discriminate Ex;
      [cbn [api_kind_of api_info] in Ex; destruct (fn_ignore f0) as [[e c]|]; discriminate Ex|].
    cbn [api_kind_of] in Ex. injection Ex as <- ->. exists s0. destruct IS as [I1 I2]. cbn in I1, I2.
    split; [|split; [exact Hx|]].
    - f_equal. destruct (st_kind s0); try (now elim I1); rewrite I2; reflexivity.
    - rewrite (ch_l1 _ _ _ _ _ K) in Hx |- *. apply in_map_iff in Hx. destruct Hx as (a & Ea & Ha). apply filter_In in Ha. destruct Ha as [Ha _].
      apply in_map_iff. exists (API j (KFunction f)). split.
      + destruct (marked_cases builtin abs (API j (KFunction f))) as [M|[(t & X & _)|(t & X & _)]]; [exact M | discriminate X | discriminate X].
      + apply filter_In. split; [exact Hf|].
        assert (NA : qmem (an_name i) abs = false).
        { destruct (qmem (an_name i) abs) eqn:Q; [|reflexivity]. exfalso. apply I1.
          assert (Ia : api_info a = i) by (rewrite <- (marked_info builtin abs a), Ea; reflexivity).
          destruct (marked_cases builtin abs a) as [M|[(t & X1 & X2 & M)|(t & X1 & M)]]; rewrite M in Ea.
          - assert (MM : mark abs a = API i (KStruct (set_abstract s0))).
            { subst a. unfold mark. cbn [api_kind_of api_info]. unfold aname. cbn [api_info]. now rewrite Q. }
            unfold marked in M. destruct (refuse_one builtin (mark abs a)) as (k & Er & Hk). rewrite Er in M. rewrite MM in *. cbn [api_kind_of api_info] in *.
            subst a. injection M as M. destruct Hk as [Hk|(t & c & _ & _ & _ & _ & Hk)]; rewrite Hk in M; [|discriminate M].
            injection M as M. rewrite <- M. reflexivity.
          - injection Ea as _ <-. reflexivity.
          - discriminate Ea. }
        destruct Mf as [f k Kf Tk _]. unfold keep. cbn [api_kind_of]. rewrite Kf.
        cbn in Tk. destruct Tk as [<-|[<-|[<-|[<-|[]]]]]; try reflexivity; now rewrite NA. }
  destruct HD as (s0 & Es & H1 & H2).
  assert (D : depends_on (API i (KStruct s)) (an_name j)).
  { apply dep_ctor. rewrite Es. cbn [set_ctor_deps st_ctor_deps]. apply ctors_spec. exists j, f. auto. }
  destruct (c58_no_ignored_dependency_partial v out N T R _ _ Hs ltac:(intros X; inversion X) D) as [X|(b & B1 & B2 & B3)]; [congruence|].
  destruct (c05_keeps_exactly_reachable builtin allow cpp l5 out N5 E) as [G _]. assert (B1' := B1). apply G in B1'. destruct B1' as [B5 _].
  destruct (filter_ignored_spec builtin known l4 (ch_nodup _ _ _ _ _ K)) as (o & ign & F' & _ & RL & _). rewrite F in F'. injection F' as <-.
  destruct (Forall2_in_r _ _ _ _ RL B5) as (b4 & Hb4 & Rb). apply not_ignored_is in B2. apply rel_ignored in Rb; [|exact B2]. subst b4.
  destruct (Forall2_in_r _ _ _ _ (ch_l4 _ _ _ _ _ K) Hb4) as (x & Hx & Ix & [Ex|(e & Ex)]); [|subst b; discriminate B2].
  assert (N1 : NoDup (map aname l1)) by (rewrite (ch_l1 _ _ _ _ _ K); now apply nodup1).
  assert (x = API j (KFunction f)) as ->.
  { apply (same_name_same_api l1); auto. unfold aname in *. rewrite <- Ix. exact B3. }
  assert (b = API j (KFunction f)) as <-; [|exact B1]. rewrite Ex. destruct Mf as [f k _ _ If]. unfold deco, disc. cbn [api_kind_of]. now rewrite If.
Qed.
End Pipe.
Print Assumptions c58_unique_names.
Print Assumptions c58_reachable.
Print Assumptions c58_no_ignored_dependency_partial.
Print Assumptions c58_panics_only.
Print Assumptions c58_listed_items_present.
Print Assumptions c75_management_kept.

(** ** C76: declarations of C types of variable length *)

Lemma iset_spec k q m : NoDup (map fst m) -> NoDup (map fst (iset k q m)) /\
  (forall e, In e (iset k q m) -> e = (k, q) \/ In e m) /\ (forall k', In k' (map fst (iset k q m)) <-> k' = k \/ In k' (map fst m)).
Proof.
  induction m as [|[k0 q0] m IH]; intros N; cbn [iset].
  - split; [constructor; [intros [] | constructor]|]. split; [intros e [<-|[]]; auto|]. intros k'. cbn. intuition.
  - cbn [map fst] in N. inversion N as [|x r N1 N2]; subst. destruct (String.eqb k k0) eqn:E.
    + apply String.eqb_eq in E. subst k0. split; [exact N|]. split; [intros e [<-|H]; [auto | right; now right]|]. intros k'. cbn. intuition.
    + apply String.eqb_neq in E. destruct (IH N2) as (I1 & I2 & I3). split; [|split].
      * cbn. constructor; [|exact I1]. intros H. apply I3 in H. destruct H as [->|H]; [now apply E | contradiction].
      * intros e [<-|H]; [right; now left|]. destruct (I2 e H); [auto | right; now right].
      * intros k'. cbn. rewrite I3. intuition.
Qed.
Lemma ctypes_spec qs : forall m, NoDup (map fst m) -> (forall k q, In (k, q) m -> k = qn_item q) ->
  let out := fold_left (fun m q => iset (qn_item q) q m) qs m in
  NoDup (map fst out) /\ (forall k q, In (k, q) out -> k = qn_item q /\ (In q qs \/ In (k, q) m)) /\
  (forall q, In q qs -> In (qn_item q) (map fst out)) /\ (forall k, In k (map fst m) -> In k (map fst out)).
Proof.
  induction qs as [|q0 qs IH]; intros m N H; cbn zeta; cbn [fold_left].
  - split; [exact N|]. split; [intros k q I; split; [now apply H | auto]|]. split; [intros q []|auto].
  - destruct (iset_spec (qn_item q0) q0 m N) as (I1 & I2 & I3).
    assert (H' : forall k q, In (k, q) (iset (qn_item q0) q0 m) -> k = qn_item q).
    { intros k q I. destruct (I2 _ I) as [E|E]; [congruence | auto]. }
    destruct (IH _ I1 H') as (J1 & J2 & J3 & J4). split; [exact J1|]. split; [|split].
    + intros k q I. destruct (J2 k q I) as [-> [X|X]]; [split; [reflexivity | left; now right]|].
      split; [reflexivity|]. destruct (I2 _ X) as [E|E]; [left; left; congruence | auto].
    + intros q [<-|I]; [apply J4, I3; auto | auto].
    + intros k I. apply J4, I3. auto.
Qed.

(** Every C type of variable length used by an API gets an item named after it in the root namespace.
    If no API already has such a name, all APIs are kept and the additions declare exactly C types in
    use, each under its own final identifier, no identifier twice. *)
Theorem c76_ctypes_declared : forall builtin ctype v, av_wf v ->
  let out := append_ctype_information builtin ctype v in
  (forall a q, In a (av_apis v) -> depends_on a q -> ctype q = true -> exists b, In b (av_apis out) /\ aname b = QN [] (qn_item q)) /\
  ((forall a b q, In a (av_apis v) -> depends_on a q -> ctype q = true -> In b (av_apis v) -> aname b <> QN [] (qn_item q)) ->
   exists extra, av_apis out = av_apis v ++ extra /\ NoDup (map aname extra) /\
     (forall b, In b extra -> exists a q, In a (av_apis v) /\ depends_on a q /\ ctype q = true /\ b = API (AN (QN [] (qn_item q)) None) (KCType q)) /\
     (forall a q, In a (av_apis v) -> depends_on a q -> ctype q = true ->
        exists q', qn_item q' = qn_item q /\ In (API (AN (QN [] (qn_item q)) None) (KCType q')) extra)).
Proof.
  intros builtin ctype v W out. unfold out, append_ctype_information. set (qs := filter ctype (flat_map deps (av_apis v))).
  assert (Q : forall q, In q qs <-> exists a, In a (av_apis v) /\ depends_on a q /\ ctype q = true).
  { intros q. unfold qs. rewrite filter_In, in_flat_map. split.
    - intros ((a & H1 & H2) & H3). exists a. split; [exact H1|]. split; [now apply depends_on_deps | exact H3].
    - intros (a & H1 & H2 & H3). split; [exists a; split; [exact H1 | now apply depends_on_deps] | exact H3]. }
  destruct (ctypes_spec qs [] (NoDup_nil _) ltac:(intros k q [])) as (J1 & J2 & J3 & _).
  set (m := fold_left _ qs []) in *. set (extra := map (fun e : string * qname => API (AN (QN [] (fst e)) None) (KCType (snd e))) m).
  assert (NE : map aname extra = map (fun k => QN [] k) (map fst m)) by (unfold extra; rewrite !map_map; reflexivity).
  assert (ND : NoDup (map aname extra)).
  { rewrite NE. apply FinFun.Injective_map_NoDup; [|exact J1]. intros x y E. congruence. }
  split.
  - intros a q Ha Hd Hc. assert (X : In (QN [] (qn_item q)) (map aname (av_apis (av_extend builtin v extra)))).
    { apply (extend_names builtin v extra); [exact W|]. right. rewrite NE. apply (in_map (fun k => QN [] k)), J3, Q. eauto. }
    apply in_map_iff in X. destruct X as (b & X1 & X2). eauto.
  - intros NC. exists extra. assert (D : forall b, In b extra -> exists a q, In a (av_apis v) /\ depends_on a q /\ ctype q = true /\ b = API (AN (QN [] (qn_item q)) None) (KCType q)).
    { intros b Hb. unfold extra in Hb. apply in_map_iff in Hb. destruct Hb as ([k q] & <- & I). destruct (J2 k q I) as [-> [X|[]]].
      apply Q in X. destruct X as (a & X1 & X2 & X3). exists a, q. auto. }
    split; [|split; [exact ND|split; [exact D|]]].
    + apply extend_nodup; [exact W|]. rewrite map_app. apply NoDup_app_intro; [apply W | exact ND|].
      intros n H1 H2. apply in_map_iff in H1, H2. destruct H1 as (b & <- & H1). destruct H2 as (c & E & H2).
      destruct (D c H2) as (a & q & X1 & X2 & X3 & ->). apply (NC a b q X1 X2 X3 H1). now rewrite <- E.
    + intros a q Ha Hd Hc. assert (X : In (qn_item q) (map fst m)) by (apply J3, Q; eauto).
      apply in_map_iff in X. destruct X as ([k q'] & E & I). cbn in E. subst k. destruct (J2 _ _ I) as [E _]. exists q'. split; [auto|].
      unfold extra. apply in_map_iff. exists (qn_item q, q'). auto.
Qed.
Print Assumptions c76_ctypes_declared.

Definition pl_fn (n : string) (k : fn_kind) (ds : list qname) : api :=
  API (AN (QN [] n) None) (KFunction {| fn_ident := n; fn_kind_of := k; fn_bridge_name := n; fn_rust_name := n; fn_params := [];
    fn_deps := ds; fn_ignore := None; fn_external := true; fn_has_wrapper := false |}).
Definition pl_struct (n : string) (k : type_kind) : api :=
  API (AN (QN [] n) None) (KStruct {| st_kind := k; st_bases := []; st_field_deps := []; st_field_def_deps := []; st_num_generics := 0; st_ctor_deps := [] |}).
Definition all_lex (_ : string) := true.
Definition nothing (_ : string) := false.

(** A class of the user's called [c_int] is lost as soon as anything kept uses [int]. *)
Theorem c76_clash_refuted : exists v out, av_wf v /\ (exists a, In a (av_apis v) /\ aname a = QN [] "c_int" /\ ~ ignored a) /\
  append_ctype_information nothing (fun q => qn_eqb q (QN ["autocxx"] "c_int")) v = out /\
  forall b, In b (av_apis out) -> aname b = QN [] "c_int" -> ignored b.
Proof.
  pose (l := [pl_struct "c_int" NonPod; pl_fn "f" FFunction [QN ["autocxx"] "c_int"]]).
  exists (av_from_list nothing l). eexists. split; [apply av_wf_from_list|]. split; [|split; [reflexivity|]].
  - exists (pl_struct "c_int" NonPod). split; [now left|]. split; [reflexivity|]. intros H. inversion H.
  - intros b H. vm_compute in H. destruct H as [<-|[<-|[]]]; intros E; [discriminate E | constructor].
Qed.
Print Assumptions c76_clash_refuted.

(** C58 without the hypothesis that every type exists: [g] is kept although the type it needs is in error. *)
Theorem c58_unknown_type_refuted : exists v out a b, NoDup (map aname (av_apis v)) /\
  to_gc nothing all_lex nothing (fun _ => false) (String.eqb "g") qn_item v = Some out /\
  In a (av_apis out) /\ ~ ignored a /\ In b (av_apis out) /\ depends_on a (aname b) /\ ignored b.
Proof.
  pose (l := [pl_fn "g" FFunction [QN [] "T"]; ri_td "T" "mystery"]).
  exists (av_from_list nothing l). eexists _, (pl_fn "g" FFunction [QN [] "T"]), _.
  split; [apply av_wf_from_list|]. split; [vm_compute; reflexivity|]. split; [now left|]. split; [intros H; inversion H|].
  split; [right; left; reflexivity|]. split; [constructor; now left | constructor].
Qed.
Print Assumptions c58_unknown_type_refuted.

(** A method whose name cannot be used, of a class the user lists, leaves no trace at all: the error
    made for it by name checking is filed under the method, not under the class, and is collected. *)
Theorem c58_unnameable_method_unreported_refuted : exists v out m,
  NoDup (map aname (av_apis v)) /\
  to_gc nothing all_lex nothing (fun _ => false) (String.eqb "A") qn_item v = Some out /\
  (exists c, In c (av_apis v) /\ aname c = QN [] "A" /\ In "A" (map (fun x => qn_item (aname x)) (av_apis out))) /\
  In m (av_apis v) /\ asked_as m (QN [] "A") /\ ~ ignored m /\
  forall b, In b (av_apis out) -> aname b <> aname m.
Proof.
  pose (m := pl_fn "A_b__c" (FMethod MNormal (QN [] "A")) [QN [] "A"]). pose (l := [pl_struct "A" NonPod; m]).
  exists (av_from_list nothing l). eexists _, m. split; [apply av_wf_from_list|]. split; [vm_compute; reflexivity|]. split; [|split; [|split; [|split]]].
  - exists (pl_struct "A" NonPod). split; [now left|]. split; [reflexivity | now left].
  - right. now left.
  - eapply ask_method. reflexivity.
  - intros H. inversion H.
  - intros b [<-|[]]; discriminate.
Qed.
Print Assumptions c58_unnameable_method_unreported_refuted.

(** A run meeting the hypotheses: listing only [A] keeps it, its copy constructor and its methods, one of
    them as an error because it needs an ignored item; [B] and its copy constructor are dropped. *)
Definition pl_case : list api :=
  [pl_struct "A" NonPod; pl_struct "B" NonPod;
   pl_fn "A_copy" (FTraitMethod TCopyConstructor (QN [] "A")) [QN [] "A"];
   pl_fn "B_copy" (FTraitMethod TCopyConstructor (QN [] "B")) [QN [] "B"];
   pl_fn "A_m" (FMethod MNormal (QN [] "A")) [QN [] "A"; QN [] "int"];
   pl_fn "A_k" (FMethod MNormal (QN [] "A")) [QN [] "C"];
   API (AN (QN [] "C") None) (KIgnored EDuplicateItems None)].
Example c58_case :
  let v := av_from_list nothing pl_case in
  NoDup (map aname (av_apis v)) /\ types_exist (fun q => qn_eqb q (QN [] "int")) (av_apis v) /\
  exists out, pipeline nothing all_lex nothing (fun q => qn_eqb q (QN [] "int")) (String.eqb "A") qn_item (fun _ => false) v = Some out /\
    map aname (av_apis out) = map (QN []) ["A"; "A_copy"; "A_m"; "A_k"] /\ map is_ignored (av_apis out) = [false; false; false; true].
Proof.
  split; [apply av_wf_from_list|]. split.
  - intros a d Ha Hd. apply depends_on_deps in Hd.
    assert (X : forallb (fun a => forallb (fun d => qn_eqb d (QN [] "int") ||
        existsb (fun b => qn_eqb (aname b) d && match api_kind_of b with KFunction _ => false | _ => true end) (av_apis (av_from_list nothing pl_case))) (deps a))
        (av_apis (av_from_list nothing pl_case)) = true) by (vm_compute; reflexivity).
    rewrite forallb_forall in X. specialize (X a Ha). rewrite forallb_forall in X. specialize (X d Hd). apply orb_true_iff in X.
    destruct X as [X|X]; [auto|]. right. apply existsb_exists in X. destruct X as (b & B1 & B2). apply andb_true_iff in B2. destruct B2 as [B2 B3].
    exists b. split; [exact B1|]. split; [now apply qn_eqb_eq|]. intros f E. rewrite E in B3. discriminate.
  - eexists. split; [vm_compute; reflexivity|]. split; reflexivity.
Qed.
