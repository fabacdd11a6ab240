(** C84: what the signatures of kept functions mention, for the whole of engine/src/conversion/mod.rs:109-192. *)
From Coq Require Import Relations.
From Verif Require Import Base QNamesModel KnownTypesModel KnownTypesProofs ApiModel ApiSpec ApiVecModel ApiVecProofs NameCheckModel
  TypesModel TypesSpec TypedefsModel TypedefsProofs TypedefsProps CppTypesModel ConcreteNamesModel TypeConverterModel
  TypeConverterProofs TypeConverterProps TypeConverterDepsProps ByValueModel ConversionModel SynthNamesModel TrackersModel
  FnAnalysisModel FnAnalysisProofs SubclassGenModel KeptProofs RemoveIgnoredModel RemoveIgnoredProofs RemoveIgnoredProps DepthFirstModel
  GcModel GcProofs GcProps PipelineModel PipelineProofs PipelineProps FrontModel FrontProofs FnDriverModel FnDriverProofs FnDriverProps.
From Verif Require FrontProps.

(** * What becomes of what a kept item needs *)
(** [q] is the name of one of the two C++ types made for a subclass. *)
Definition subclass_name (v : list api) (q : qname) : Prop := exists i sup, In (API i (KSubclass sup)) v /\
  (q = QN [] (qn_item (an_name i) +++ "Holder") \/ q = QN (qn_ns (an_name i)) (qn_item (an_name i) +++ "Cpp")).

Section Fate.
Variables (builtin lexes reserved : string -> bool) (known : qname -> bool).
Variables (allow : string -> bool) (cpp : qname -> string) (ctype : qname -> bool).
Notation run_gc := (to_gc builtin lexes reserved known allow cpp).

(** The item called [q] needs a type which is not built in and which no item, unless a function, is called. *)
Definition refused (v : list api) (q : qname) : Prop := exists b e, In b v /\ aname b = q /\ depends_on b e /\ known e = false /\
  forall c, In c v -> aname c = e -> exists f, api_kind_of c = KFunction f.

(** A kept item which is not in error is as the analysis of functions left it, but for the constructors a class needs. *)
Lemma unchanged v out b : NoDup (map aname (av_apis v)) -> run_gc v = Some out -> In b (av_apis out) -> ~ ignored b ->
  exists a, In a (av_apis v) /\ api_info a = api_info b /\
    ((forall s, api_kind_of a <> KStruct s) -> b = a /\ forall f, api_kind_of a = KFunction f -> fn_ignore f = None) /\
    (forall s, api_kind_of a = KStruct s -> exists s', api_kind_of b = KStruct s').
Proof.
  intros N R Hb NI. destruct (stages _ _ _ _ _ _ v out N R) as (abs & l1 & l4 & l5 & K & F & N5 & E).
  destruct (gc_spec builtin allow cpp l5 out N5 E) as [_ G]. apply G, reach_in in Hb. clear G E.
  destruct (filter_ignored_spec builtin known l4 (ch_nodup _ _ _ _ _ K)) as (o & ign & F' & _ & RL & _). rewrite F in F'. injection F' as <-.
  destruct (Forall2_in_r _ _ _ _ RL Hb) as (b4 & H4 & Rb). apply rel_ignored in Rb; [|apply not_ignored_is, NI]. subst b4.
  destruct (Forall2_in_r _ _ _ _ (ch_l4 _ _ _ _ _ K) H4) as (x & Hx & Ix & [Ex|(e & Ex)]); [|subst b; elim NI; constructor].
  rewrite (ch_l1 _ _ _ _ _ K) in Hx. apply in_map_iff in Hx as (a & Ea & Ha). apply filter_In in Ha as [Ha _].
  exists a. split; [exact Ha|]. split; [rewrite <- (marked_info builtin abs a), Ea; congruence|].
  destruct (marked_cases builtin abs a) as [M|[(s & M1 & M2 & M)|(s & M1 & M)]]; rewrite M in Ea; subst x.
  - split.
    + intros NS. destruct (api_kind_of a) eqn:KA; try (split; [rewrite Ex; unfold deco, disc; rewrite !KA; reflexivity | discriminate]).
      * assert (X : deco l1 a = a) by (unfold deco; now rewrite KA). rewrite X in Ex. unfold disc in Ex. rewrite KA in Ex.
        destruct (fn_ignore f) as [[e c]|] eqn:FI; [subst b; elim NI; constructor|]. split; [exact Ex|]. intros g Eg. injection Eg as <-. exact FI.
      * now elim (NS s).
    + intros s KA. rewrite Ex. destruct a as [i k]. cbn in KA. subst k. eexists. reflexivity.
  - split; [intros NS; now elim (NS s)|]. intros s2 _. rewrite Ex. eexists. reflexivity.
  - exfalso. apply NI. rewrite Ex. constructor.
Qed.

(** What an item needs, if the item is kept and not in error. *)
Lemma dep_fate v out a e : NoDup (map aname (av_apis v)) -> run_gc v = Some out -> In a (av_apis out) -> ~ ignored a -> depends_on a e ->
  (known e = true \/ subclass_name (av_apis v) e \/ exists b, In b (av_apis out) /\ aname b = e) /\
  (forall b0, In b0 (av_apis v) -> aname b0 = e -> (forall f, api_kind_of b0 <> KFunction f) ->
     exists b, In b (av_apis out) /\ api_info b = api_info b0) /\
  (forall b, In b (av_apis out) -> aname b = e -> ignored b -> refused (av_apis v) e).
Proof.
  intros N R Ha NI D. destruct (stages _ _ _ _ _ _ v out N R) as (abs & l1 & l4 & l5 & K & F & N5 & E).
  destruct (gc_spec builtin allow cpp l5 out N5 E) as [_ G].
  assert (Ha5 := Ha). apply G in Ha5. assert (RA := Ha5). apply reach_in in Ha5.
  destruct (c07_no_ignored_dependency_partial builtin known l4 (ch_nodup _ _ _ _ _ K)) as (o & F1 & H7). rewrite F in F1. injection F1 as <-.
  destruct (c08_loses_no_name_and_terminates builtin known l4 (ch_nodup _ _ _ _ _ K)) as (o & F1 & I8 & _ & _). rewrite F in F1. injection F1 as <-.
  destruct (H7 a e Ha5 NI D) as [H71 H72].
  assert (UP : forall c, In c l4 -> aname c = e -> exists b, In b (av_apis out) /\ api_info b = api_info c).
  { intros c Hc Ec. assert (B : In (api_info c) (map api_info l5)) by (rewrite I8; now apply in_map). apply in_map_iff in B as (b & B1 & B2).
    exists b. split; [|exact B1]. apply G. eapply reach_dep; [exact RA | exact B2|]. apply depends_on_deps. unfold aname. rewrite B1. unfold aname in Ec. now rewrite Ec. }
  split; [|split].
  - destruct H71 as [H|(c & Hc & NIc & P)]; [left; exact H|]. right.
    destruct c as [ic kc]. inversion P; subst.
    + right. destruct (UP _ Hc eq_refl) as (b & B1 & B2). exists b. split; [exact B1|]. unfold aname. now rewrite B2.
    + left. destruct (Forall2_in_r _ _ _ _ (ch_l4 _ _ _ _ _ K) Hc) as (x & Hx & Ix & [Ex|(e & Ex)]); [|discriminate Ex].
      rewrite (ch_l1 _ _ _ _ _ K) in Hx. apply in_map_iff in Hx as (a0 & Ea & Ha0). apply filter_In in Ha0 as [Ha0 _].
      destruct x as [ix kx]. unfold deco, disc in Ex. cbn [api_kind_of api_info] in Ex.
      destruct kx; try discriminate Ex; [cbn [api_kind_of] in Ex; destruct (fn_ignore f) as [[? ?]|]; discriminate Ex|].
      injection Ex as -> <-. exists ix, sup.
      destruct (marked_cases builtin abs a0) as [M|[(s & M1 & M2 & M)|(s & M1 & M)]]; rewrite M in Ea; try discriminate Ea. subst a0. auto.
    + left. destruct (Forall2_in_r _ _ _ _ (ch_l4 _ _ _ _ _ K) Hc) as (x & Hx & Ix & [Ex|(e & Ex)]); [|discriminate Ex].
      rewrite (ch_l1 _ _ _ _ _ K) in Hx. apply in_map_iff in Hx as (a0 & Ea & Ha0). apply filter_In in Ha0 as [Ha0 _].
      destruct x as [ix kx]. unfold deco, disc in Ex. cbn [api_kind_of api_info] in Ex.
      destruct kx; try discriminate Ex; [cbn [api_kind_of] in Ex; destruct (fn_ignore f) as [[? ?]|]; discriminate Ex|].
      injection Ex as -> <-. exists ix, sup.
      destruct (marked_cases builtin abs a0) as [M|[(s & M1 & M2 & M)|(s & M1 & M)]]; rewrite M in Ea; try discriminate Ea. subst a0. auto.
  - intros b0 Hb0 Eb NF. destruct (kept_name builtin _ _ _ _ b0 K Hb0 NF) as (c & Hc & Ic).
    destruct (UP c Hc) as (b & B1 & B2); [unfold aname; rewrite Ic; exact Eb|]. exists b. split; [exact B1 | congruence].
  - intros b Hb Eb Ib. apply G, reach_in in Hb. destruct (H72 b Hb Ib Eb) as (b0 & d' & Hb0 & NI0 & E0 & D0 & [U1 U2] & U3).
    destruct (dep_origin builtin _ _ _ _ b0 d' K Hb0 NI0 D0) as [(y & Hy & Iy & Dy)|(c & Hc & Ec)]; [|elim (U3 c Hc Ec)].
    exists y, d'. split; [exact Hy|]. split; [unfold aname; rewrite Iy; exact E0|]. split; [exact Dy|]. split; [exact U1|].
    intros c Hc Ec. destruct (api_kind_of c) eqn:KC; eauto;
      (destruct (kept_name builtin _ _ _ _ c K Hc ltac:(intros f0; congruence)) as (c' & C1 & C2); elim (U3 c' C1); unfold aname; rewrite C2; exact Ec).
Qed.
End Fate.

(** Nothing but the items for C types is added in the end. *)
Lemma extend_in builtin l : forall v b, av_wf v -> In b (av_apis (av_extend builtin v l)) ->
  In b (av_apis v) \/ In b l \/ ignored b.
Proof.
  induction l as [|a l IH]; intros v b W H; [left; exact H|].
  change (In b (av_apis (av_extend builtin (av_push builtin v a) l))) in H.
  apply IH in H; [|apply av_wf_push, W]. destruct H as [H|[H|H]]; [|right; left; right; exact H | right; right; exact H].
  destruct (in_dec qname_eq_dec (aname a) (map aname (av_apis v))) as [I|I].
  - destruct (is_ignored a) eqn:IA; [rewrite push_dup_ignored in H by assumption; left; exact H|].
    rewrite push_dup_real in H by assumption. apply in_app_iff in H as [H|[<-|[]]]; [left; apply filter_In in H; tauto | right; right; constructor].
  - rewrite push_fresh in H by assumption. apply in_app_iff in H as [H|[<-|[]]]; [left; exact H | right; left; left; reflexivity].
Qed.
Lemma extend_keeps builtin l : forall v b, av_wf v -> In b (av_apis v) -> (forall a, In a l -> aname a <> aname b) ->
  In b (av_apis (av_extend builtin v l)).
Proof.
  induction l as [|a l IH]; intros v b W H NM; [exact H|].
  change (In b (av_apis (av_extend builtin (av_push builtin v a) l))).
  apply IH; [apply av_wf_push, W | | intros x Hx; apply NM; right; exact Hx].
  apply push_other; [exact W | intros E; apply (NM a); [left; reflexivity | congruence] | exact H].
Qed.
(** A name by which a C type is declared in the output. *)
Definition ctype_name (q : qname) : Prop := exists c, is_ctype c = true /\ q = QN [] (qn_item c).
Lemma ctype_name_dec q : ctype_name q \/ ~ ctype_name q.
Proof.
  destruct (existsb (fun c => is_ctype c && qn_eqb q (QN [] (qn_item c))) (flat_map spellings known_table)) eqn:E.
  - left. apply existsb_exists in E as (c & _ & H). apply andb_true_iff in H as [H1 H2]. apply qn_eqb_eq in H2. exists c. auto.
  - right. intros (c & H1 & ->). assert (K : known_name c).
    { apply known_name_get. unfold is_ctype, on_behavior in H1. destruct (kt_get c) as [td|]; [eauto | discriminate]. }
    destruct K as (td & T1 & T2). assert (X : existsb (fun c0 => is_ctype c0 && qn_eqb (QN [] (qn_item c)) (QN [] (qn_item c0))) (flat_map spellings known_table) = true).
    { apply existsb_exists. exists c. split; [apply in_flat_map; eauto|]. rewrite H1. apply qn_eqb_eq. reflexivity. }
    congruence.
Qed.
Lemma ctypes_in builtin v b : av_wf v -> In b (av_apis (append_ctype_information builtin is_ctype v)) -> ~ ignored b ->
  In b (av_apis v) \/ exists q, api_kind_of b = KCType q.
Proof.
  intros W H NI. unfold append_ctype_information in H. apply extend_in in H as [H|[H|H]]; [left; exact H | | contradiction | exact W].
  right. apply in_map_iff in H as ((k & q) & <- & _). exists q. reflexivity.
Qed.
Lemma ctypes_keep builtin v b : av_wf v -> In b (av_apis v) ->
  (exists b', In b' (av_apis (append_ctype_information builtin is_ctype v)) /\ aname b' = aname b) /\
  (~ ctype_name (aname b) -> In b (av_apis (append_ctype_information builtin is_ctype v))).
Proof.
  intros W H. unfold append_ctype_information. split.
  - assert (X : In (aname b) (map aname (av_apis (av_extend builtin v (map (fun e => API (AN (QN [] (fst e)) None) (KCType (snd e)))
      (fold_left (fun m q => iset (qn_item q) q m) (filter is_ctype (flat_map deps (av_apis v))) [])))))).
    { apply extend_names; [exact W|]. left. apply in_map, H. }
    apply in_map_iff in X as (b' & E & I). eauto.
  - intros NC. apply extend_keeps; [exact W | exact H|]. intros a Ha E. apply NC. apply in_map_iff in Ha as ((k & q) & <- & I).
    destruct (ctypes_spec (filter is_ctype (flat_map deps (av_apis v))) [] (NoDup_nil _) ltac:(intros ? ? [])) as (_ & J2 & _ & _).
    destruct (J2 _ _ I) as (Q & [F|[]]). apply filter_In in F as [_ F]. exists q. split; [exact F|]. rewrite <- E. cbn. now rewrite Q.
Qed.

(** * The parts of the analyser *)
Lemma qset_keys {A} k (v : A) m : forall k', In k' (map fst (qset k v m)) <-> k' = k \/ In k' (map fst m).
Proof.
  induction m as [|[k0 v0] m IH]; intros k'; cbn; [intuition|]. destruct (qn_eqb k k0) eqn:E; cbn.
  - apply qn_eqb_eq in E. subst k0. intuition.
  - rewrite IH. intuition.
Qed.
Lemma qset_nodup {A} k (v : A) m : NoDup (map fst m) -> NoDup (map fst (qset k v m)).
Proof.
  induction m as [|[k0 v0] m IH]; intros N; cbn; [constructor; [intros [] | constructor]|]. cbn in N. inversion N as [|? ? N1 N2]; subst.
  destruct (qn_eqb k k0) eqn:E; cbn.
  - apply qn_eqb_eq in E. subst k0. exact N.
  - constructor; [|apply IH, N2]. rewrite qset_keys. intros [->|I]; [|contradiction]. rewrite (proj2 (qn_eqb_eq k k) eq_refl) in E. discriminate.
Qed.
Lemma qset_in {A} k (v : A) m e : In e (qset k v m) -> e = (k, v) \/ In e m.
Proof.
  induction m as [|[k0 v0] m IH]; cbn; [intuition|]. destruct (qn_eqb k k0); cbn; intros [H|H]; auto. destruct (IH H); auto.
Qed.
Definition note_td := fun (m : list (qname * ty)) x => match x_kind x with XTypedef _ _ (Some (k, _)) => qset (xname x) (td_target k) m | _ => m end.
Lemma typedefs_nodup l : forall m, NoDup (map fst m) -> NoDup (map fst (fold_left note_td l m)).
Proof.
  induction l as [|x l IH]; intros m N; [exact N|]. cbn. apply IH. unfold note_td. destruct (x_kind x); try exact N.
  destruct an as [[k ds]|]; [apply qset_nodup, N | exact N].
Qed.
Lemma typedefs_in l : forall m n t, In (n, t) (fold_left note_td l m) -> In (n, t) m \/
  exists x i o k ds, In x l /\ xname x = n /\ x_kind x = XTypedef i o (Some (k, ds)) /\ t = td_target k.
Proof.
  induction l as [|x l IH]; intros m n t H; [left; exact H|]. cbn in H. apply IH in H as [H|(y & i & o & k & ds & Hy & R)].
  - unfold note_td in H. destruct (x_kind x) eqn:K; try (left; exact H). destruct an as [[k ds]|]; [|left; exact H].
    apply qset_in in H as [H|H]; [|left; exact H]. injection H as -> ->. right. exists x, item, old_tyname, k, ds. repeat split; auto. left. reflexivity.
  - right. exists y, i, o, k, ds. split; [right; exact Hy | exact R].
Qed.

(** Made-up names are not built in. *)
Lemma made_names : forallb (fun td => forallb (fun q => negb (ends_with "_autocxx_alloc" (qn_item q)) && negb (ends_with "_autocxx_free" (qn_item q)) &&
  negb (starts_with "cast_" (qn_item q)) && negb (contains "AutocxxConcrete" (qn_item q))) (spellings td)) known_table = true.
Proof. vm_compute. reflexivity. Qed.
Lemma made_unknown q : FrontProps.made_up q -> kt_get q = None.
Proof.
  intros M. destruct (kt_get q) as [td|] eqn:K; [|reflexivity]. exfalso. apply kt_get_iff in K as [K1 K2].
  pose proof made_names as F. rewrite forallb_forall in F. specialize (F td K1). rewrite forallb_forall in F. specialize (F q K2).
  rewrite !andb_true_iff, !negb_true_iff in F. destruct F as (((F1 & F2) & F3) & F4).
  destruct M as [(a & E)|[(a & E)|[(a & b & E)|(a & b & E)]]].
  - rewrite (proj2 (ends_with_spec _ _)) in F1; [discriminate | eauto].
  - rewrite (proj2 (ends_with_spec _ _)) in F2; [discriminate | eauto].
  - rewrite (proj2 (starts_with_spec _ _)) in F3; [discriminate | eauto].
  - rewrite (proj2 (contains_spec _ _)) in F4; [discriminate | eauto].
Qed.

(** No type has the name of a built-in one. *)
Definition own_names (l : list xapi) : Prop := forall x, In x l -> x_is_type x = true -> ~ known_name (xname x).
Lemma own_get l x : own_names l -> In x l -> x_is_type x = true -> kt_get (xname x) = None.
Proof. intros O H T. destruct (kt_get (xname x)) as [td|] eqn:K; [|reflexivity]. elim (O x H T). apply known_name_get. eauto. Qed.
Lemma front_own cfg l l1 : NoDup (map xname l) -> own_names l -> front cfg l = OOk l1 -> own_names l1.
Proof.
  intros ND OWN F y Hy T. destruct (FrontProps.c79_nothing_invented cfg l l1 ND F y Hy) as [M|(x & Hx & FX)].
  - intros (td & K)%known_name_get. rewrite (made_unknown _ M) in K. discriminate.
  - rewrite (FrontProps.fate_name _ _ FX). apply OWN; [exact Hx|]. destruct FX as [_ [FX|[FX|((i & o & a & KX) & b & FX)]]].
    + unfold x_is_type in *. destruct (x_kind y), (x_kind x); try discriminate FX; reflexivity || discriminate T.
    + unfold x_ignored in FX. unfold x_is_type in T. destruct (x_kind y); discriminate.
    + unfold x_is_type. rewrite KX. reflexivity.
Qed.
Lemma undeclared l q : (forall x i o a, In x l -> xname x = q -> x_kind x <> XTypedef i o a) ->
  resolve_typedef (fold_left note_td l []) q = TdOk None.
Proof.
  intros H. unfold resolve_typedef.
  assert (Q : qget q (fold_left note_td l []) = None).
  { destruct (qget q (fold_left note_td l [])) as [t|] eqn:E; [|reflexivity]. exfalso. apply qget_in in E.
    apply typedefs_in in E as [[]|(x & i & o & k & ds & Hx & Ex & K & _)]. eapply H; eauto. }
  destruct (List.length _); cbn [Nat.add resolve_loop]; rewrite Q; reflexivity.
Qed.
Lemma moveit_table : forallb (fun q => existsb (fun p => qn_eqb (fst p) q && match snd p with Some true => true | _ => false end) pod_safe_types ||
  (is_known_type q && match cxx_generic_behavior q with GNot => true | _ => false end && negb (qn_eqb q (QN ["core"; "pin"] "Pin")))) moveit_safe_types = true.
Proof. vm_compute. reflexivity. Qed.
Lemma placeable_env d l : NoDup (map xname l) -> own_names l -> placeable (x_env d l).
Proof.
  intros ND OWN q Hm NP. unfold x_env in *. cbn [fe_moveit fe_pod_safe fe_tc] in *. unfold x_correctly_sized in Hm. apply in_app_iff in Hm as [Hm|Hm].
  - apply in_flat_map in Hm as (x & Hx & Hq).
    assert (X : xname x = q /\ x_is_type x = true /\ forall i o a, x_kind x <> XTypedef i o a).
    { unfold x_is_type. destruct (x_kind x); cbn in Hq; repeat match goal with H : False |- _ => destruct H | H : In _ (if ?b then _ else _) |- _ => destruct b; cbn in H | H : _ = _ \/ False |- _ => destruct H as [<-|[]] end;
        split; try reflexivity; split; try reflexivity; intros; discriminate. }
    destruct X as (<- & T & NT). split; [|split; [|split]].
    + apply (undeclared l). intros y i o a Hy Ey. rewrite (FrontProps.same_entry l y x ND Hy Hx Ey). apply NT.
    + right. cbn. apply in_map, filter_In. auto.
    + unfold cxx_generic_behavior. rewrite (own_get l x OWN Hx T). reflexivity.
    + intros E. pose proof (own_get l x OWN Hx T) as O. rewrite E in O. vm_compute in O. discriminate.
  - pose proof moveit_table as F. rewrite forallb_forall in F. specialize (F q Hm). apply orb_true_iff in F as [F|F].
    + exfalso. apply NP. apply in_app_iff. right. apply existsb_exists in F as ((n & b) & H1 & H2). apply andb_true_iff in H2 as [H2 H3].
      apply qn_eqb_eq in H2. cbn in H2, H3. subst n. apply in_flat_map. exists (q, b). split; [exact H1|]. cbn. destruct b as [[|]|]; try discriminate. left. reflexivity.
    + rewrite !andb_true_iff, negb_true_iff in F. destruct F as ((F1 & F2) & F3).
      split; [|split; [left; exact F1|split]].
      * apply (undeclared l). intros y i o a Hy Ey KY. pose proof (own_get l y OWN Hy ltac:(unfold x_is_type; rewrite KY; reflexivity)) as O. rewrite Ey in O. unfold is_known_type in F1. rewrite O in F1. discriminate.
      * destruct (cxx_generic_behavior q); try discriminate. reflexivity.
      * intros E. apply qn_eqb_eq in E. congruence.
Qed.

(** A use declaration names what it stands for, as engine/src/conversion/parse/parse_bindgen.rs:328-342 makes it. *)
Definition uses_named (l : list xapi) : Prop := forall x t o a, In x l -> x_kind x = XTypedef (TdUse t) o a ->
  exists lead id q, t = TPath lead id [] /\ o = Some q /\ refers_to t q.
Section Targets.
Variable cfg : acfg.
Definition use_sound (l0 : list xapi) (y : xapi) : Prop := forall t o k deps,
  x_kind y = XTypedef (TdUse t) o (Some (k, deps)) -> k = TdUse t /\ exists x a, In x l0 /\ x_kind x = XTypedef (TdUse t) o a.
Lemma use_sound_l l l1 : convert_typedef_targets cfg l = OOk l1 -> forall y, In y l1 -> use_sound l y.
Proof.
  intros H y Hy. unfold convert_typedef_targets in H.
  destruct (x_convert _ _ _ _) as [[cs extra] [r0|e| |]] eqn:C; try discriminate. injection H as <-.
  assert (F : Forall2 (fun x y => forall t o k deps, x_kind y = XTypedef (TdUse t) o (Some (k, deps)) -> k = TdUse t /\ exists a, x_kind x = XTypedef (TdUse t) o a) l r0).
  { eapply FrontProofs.x_convert_forall2; [| |exact C].
    - intros s s1 x z E _ t o k deps K. unfold tdef_item in E. destruct (x_kind x) eqn:KX; try (injection E as _ <-; congruence).
      destruct item as [g u|u].
      + unfold get_replacement_typedef in E. destruct (Nat.ltb 0 g); [discriminate|]. destruct (ac_fatal cfg (xname x)); [discriminate|].
        destruct (convert_type _ _ _ _ _ _) as [cs1 [a|e| |]]; try discriminate.
        destruct (match ann_ty a with TPath _ _ _ => _ | _ => _ end) as [[|]|]; try discriminate. injection E as _ <-. discriminate K.
      + injection E as _ <-. cbn in K. injection K as <- <- <- <-. split; [reflexivity|]. eauto.
    - intros; discriminate. }
  assert (M : Forall (FrontProps.made_item cfg) extra).
  { change (Forall (FrontProps.made_item cfg) (snd (cs, extra))). eapply (FrontProps.x_convert_state cfg (fun s => Forall (FrontProps.made_item cfg) (snd s))); [| |exact C].
    - intros. eapply FrontProps.tdef_state; eauto.
    - constructor. }
  assert (X : forall z, In z (xextend cfg [] r0) -> use_sound l z).
  { intros z Hz. apply xextend_in in Hz as [[]|[Hz|(w & _ & ->)]]; intros t o k deps K; [|discriminate].
    destruct (Forall2_in_r _ _ _ _ F Hz) as (x & Hx & FX). destruct (FX _ _ _ _ K) as (E & a & KX). eauto. }
  rewrite Forall_forall in M. apply xextend_in in Hy as [Hy|[Hy|(w & _ & ->)]]; [apply X, Hy | | intros t o k deps K; discriminate].
  destruct (M _ Hy) as [(p & q & def & rs & ->)|(p & q & ->)]; intros t o k deps K; discriminate.
Qed.
(** What a typedef stands for mentions only built-in types and what it needs. *)
Lemma target_names l r y i o k ds : NoDup (map xname l) -> FrontProps.parsed l -> uses_named l -> front cfg l = OOk r ->
  In y r -> x_kind y = XTypedef i o (Some (k, ds)) -> forall q, names (td_target k) q -> known_name q \/ In q ds \/ o = Some q.
Proof.
  intros ND PA US F Hy K q (l0 & id & PI & RF).
  destruct (FrontProps.typedef_survivor _ _ _ _ _ _ _ ND F Hy K) as (l1 & l2 & T & _ & Y1 & _). destruct i as [g t|t].
  - destruct (FrontProps.tdef_sound _ _ _ ND T _ Y1 _ _ _ _ _ K) as (_ & cs & cs' & a & C & -> & -> & _).
    assert (A := c61_dependencies_complete _ _ _ _ _ _ _ _ ltac:(rewrite (FrontProps.parsed_env cfg l PA); constructor) C l0 id q PI RF).
    destruct A as [A|[A|(al & n & tgt & l' & id' & _ & _ & A & _)]]; [auto | auto|]. rewrite (FrontProps.parsed_env cfg l PA) in A. destruct A.
  - destruct (use_sound_l _ _ T _ Y1 _ _ _ _ K) as (-> & x & a & Hx & KX). destruct (US _ _ _ _ Hx KX) as (lead & id' & p & -> & -> & R).
    right. right. cbn in PI. inversion PI as [|? ? ? ? ? a0 Ia Pa| | |]; subst; [|destruct Ia]. apply path_name_refers in R, RF. congruence.
Qed.
End Targets.

(** * C84: what signatures mention *)
Lemma refers_names t q : refers_to t q -> names t q.
Proof. intros [m ns id args M|ns id args H1 H2]; eexists _, _; (split; [apply pi_here | constructor; assumption]). Qed.
(** What the typedef [n] stands for mentions [q], perhaps through further typedefs. *)
Inductive stands_for (l : list xapi) : qname -> qname -> Prop :=
| sf_direct x i o k ds q : In x l -> x_kind x = XTypedef i o (Some (k, ds)) -> names (td_target k) q -> stands_for l (xname x) q
| sf_through a b q : stands_for l a b -> stands_for l b q -> stands_for l a q.
(** The item called [q] needs a type that does not exist, or it is a typedef and another item took its place for having
    the same name. *)
Definition broken (d : dcfg) (l1 r : list xapi) (q : qname) : Prop :=
  refused is_known_type (map (erase d) r) q \/
  exists x y, In x l1 /\ FrontProps.is_typedef x /\ xname x = q /\ In y r /\ xname y = q /\ ~ FrontProps.is_typedef y.

Section Signatures.
Variables (d : dcfg) (l l1 r : list xapi) (found : list (qname * IC.items)) (g : apivec).
Hypothesis ND : NoDup (map xname l).
Hypothesis PA : FrontProps.parsed l.
Hypothesis US : uses_named l.
Hypothesis OWN : own_names l.
Hypothesis FR : front (dc_front d) l = OOk l1.
Hypothesis AN : analyze_functions_x d l1 = OOk (r, found).
Let v := av_from_list (ac_builtin (dc_front d)) (map (erase d) r).
Hypothesis GC : to_gc (ac_builtin (dc_front d)) (ac_lexes (dc_front d)) (ac_reserved (dc_front d)) is_known_type (ac_allow (dc_front d)) to_cpp_name v = Some g.
Let tds := fold_left note_td l1 [].

Lemma account_of : exists st, analyze_functions_m d l1 (x_start l1) = (st, OOk (r, found)).
Proof. unfold analyze_functions_x in AN. destruct (analyze_functions_m d l1 (x_start l1)) as [st o]. cbn in AN. subst o. eauto. Qed.
Lemma r_nodup : NoDup (map xname r).
Proof. destruct account_of as (st & H). apply (c82_result _ _ _ _ _ H). Qed.
Lemma erase_info x : api_info (erase d x) = x_info x.
Proof. reflexivity. Qed.
Lemma v_apis : av_apis v = map (erase d) r.
Proof. apply from_list_nodup. rewrite map_map. exact r_nodup. Qed.
Lemma v_nodup : NoDup (map aname (av_apis v)).
Proof. rewrite v_apis, map_map. exact r_nodup. Qed.
Lemma l1_nodup : NoDup (map xname l1).
Proof. apply (FrontProps.c79_nothing_lost_partial _ l l1 ND FR). Qed.
Lemma tds_nodup : NoDup (map fst tds).
Proof. apply typedefs_nodup. constructor. Qed.

(** A typedef needed by something alive is alive. *)
Definition alive (q : qname) : Prop := exists x i o k ds, In x l1 /\ xname x = q /\ x_kind x = XTypedef i o (Some (k, ds)) /\
  In (API (x_info x) (KTypedef o ds)) (av_apis g).
Lemma alias_alive a e t : In a (av_apis g) -> ~ ignored a -> depends_on a e -> In (e, t) tds -> broken d l1 r e \/ alive e.
Proof.
  intros Ha NI D T. apply typedefs_in in T as [[]|(x & i & o & k & ds & Hx & Ex & K & Et)].
  destruct (dep_fate _ _ _ _ _ _ v g a e v_nodup GC Ha NI D) as (_ & F2 & F3).
  assert (TX : FrontProps.is_typedef x) by (exists i, o, (Some (k, ds)); exact K).
  destruct account_of as (st & H). destruct (c82_account _ _ _ _ _ H) as (P & A). pose proof (ac_settles _ _ _ _ _ _ A) as S0.
  assert (HP : In x P) by (apply (ac_same _ _ _ _ _ _ A); [exact Hx | intros (f & pv & a0 & KF); congruence]).
  assert (HY : exists y, In y r /\ xname y = xname x).
  { apply (in_map xname), (se_names _ _ _ S0), in_map_iff in HP as (y & E & Hy). eauto. }
  destruct HY as (y & Hy & Ey).
  assert (HK : y = x \/ ~ FrontProps.is_typedef y).
  { apply (se_in _ _ _ S0) in Hy as [Hy|(n & -> & _)]; [|right; intros (i2 & o2 & a2 & K2); discriminate].
    apply (ac_products _ _ _ _ _ _ A) in Hy. destruct Hy; try (right; intros (i2 & o2 & a2 & K2); discriminate).
    left. apply (FrontProps.same_entry l1); auto using l1_nodup. }
  destruct HK as [->|NT]; [|left; right; exists x, y; repeat split; auto; congruence].
  assert (EK : erase d x = API (x_info x) (KTypedef o ds)) by (unfold erase; rewrite K; reflexivity).
  assert (V : In (API (x_info x) (KTypedef o ds)) (av_apis v)) by (rewrite v_apis, <- EK; apply in_map, Hy).
  destruct (F2 _ V Ex) as (b & Hb & Ib); [discriminate|].
  destruct (is_ignored b) eqn:IB.
  - left. left. rewrite <- v_apis. apply (F3 b Hb); [unfold aname; rewrite Ib; exact Ex | apply ignored_is, IB].
  - right. exists x, i, o, k, ds. repeat (split; [assumption|]).
    destruct (unchanged _ _ _ _ _ _ v g b v_nodup GC Hb) as (a0 & A1 & A2 & A3 & _); [apply not_ignored_is, IB|].
    assert (a0 = API (x_info x) (KTypedef o ds)) by (apply (same_name_same_api (av_apis v)); auto using v_nodup; unfold aname; rewrite A2, Ib; reflexivity).
    subst a0. destruct A3 as [-> _]; [discriminate | exact Hb].
Qed.

(** Every typedef met on the way from one that something alive needs is alive, or the way is broken. *)
Lemma chain_alive a al : In a (av_apis g) -> ~ ignored a -> depends_on a al ->
  forall n, chain tds al n -> forall t, In (n, t) tds -> (exists m, broken d l1 r m /\ chain tds m n) \/ alive n.
Proof.
  intros Ha NI D n C. apply clos_rt_rtn1 in C. induction C as [|y z (ty & T & RT) C IH]; intros t HT.
  - destruct (alias_alive a al t Ha NI D HT) as [B|B]; [|auto]. left. exists al. split; [exact B | apply rt_refl].
  - assert (AL : alias tds y z) by (exists ty; auto).
    destruct (IH ty T) as [(m & B & CM)|(x & i & o & k & ds & Hx & Ex & K & HG)].
    + left. exists m. split; [exact B|]. eapply rt_trans; [exact CM | apply rt_step, AL].
    + assert (TY : ty = td_target k).
      { apply typedefs_in in T as [[]|(x2 & i2 & o2 & k2 & ds2 & Hx2 & Ex2 & K2 & ->)].
        assert (x2 = x) by (apply (FrontProps.same_entry l1); auto using l1_nodup; congruence). subst x2. congruence. }
      assert (NM : names (td_target k) z).
      { subst ty. apply refers_names, RT. }
      destruct (target_names _ _ _ _ _ _ _ _ ND PA US FR Hx K z NM) as [KN|DP].
      * exfalso. apply typedefs_in in HT as [[]|(x2 & i2 & o2 & k2 & ds2 & Hx2 & <- & K2 & _)].
        apply (front_own _ _ _ ND OWN FR x2 Hx2); [unfold x_is_type; rewrite K2; reflexivity | exact KN].
      * destruct (alias_alive (API (x_info x) (KTypedef o ds)) z t HG) as [B|B]; [apply not_ignored_is; reflexivity | constructor; exact DP | exact HT | | auto].
        left. exists z. split; [exact B | apply rt_refl].
Qed.

Lemma chain_stands m n t q : chain tds m n -> In (n, t) tds -> names t q -> stands_for l1 m q.
Proof.
  assert (ST : forall n t q, In (n, t) tds -> names t q -> stands_for l1 n q).
  { intros n' t' q' T NM. apply typedefs_in in T as [[]|(x & i & o & k & ds & Hx & <- & K & ->)]. econstructor; eauto. }
  intros C. apply clos_rt_rt1n in C. induction C as [|x y z (t0 & T & RT) C IH]; intros HT NM; [eapply ST; eauto|].
  eapply sf_through; [eapply ST; [exact T | apply refers_names, RT] | apply IH; assumption].
Qed.
Lemma needed_usable a q : In a (av_apis g) -> ~ ignored a -> depends_on a q ->
  known_name q \/ subclass_name (map (erase d) r) q \/ (exists b, In b (av_apis g) /\ aname b = q /\ ~ ignored b) \/
  exists m, broken d l1 r m /\ (m = q \/ stands_for l1 m q).
Proof.
  intros Ha NI D. destruct (dep_fate _ _ _ _ _ _ v g a q v_nodup GC Ha NI D) as (F1 & _ & F3).
  destruct F1 as [F1|[F1|(b & Hb & Eb)]].
  - left. apply known_name_get. unfold is_known_type in F1. destruct (kt_get q) as [td|]; [eauto | discriminate].
  - right. left. rewrite v_apis in F1. exact F1.
  - right. right. destruct (is_ignored b) eqn:IB; [|left; exists b; repeat split; auto; apply not_ignored_is, IB].
    right. exists q. split; [|auto]. left. rewrite <- v_apis. apply (F3 b Hb Eb). apply ignored_is, IB.
Qed.
Lemma sig_usable a ds q : In a (av_apis g) -> ~ ignored a -> (forall x, In x ds -> depends_on a x) -> accounted (fe_tc (x_env d l1)) ds q ->
  known_name q \/ subclass_name (map (erase d) r) q \/ (exists b, In b (av_apis g) /\ aname b = q /\ ~ ignored b) \/
  exists m, broken d l1 r m /\ (m = q \/ stands_for l1 m q).
Proof.
  intros Ha NI DS [H|[H|(al & n & tgt & l0 & id & Hal & C & T & PI & RF)]]; [auto | apply (needed_usable a); auto|].
  assert (NM : names tgt q) by (exists l0, id; auto).
  change (chain tds al n) in C. change (In (n, tgt) tds) in T.
  destruct (chain_alive a al Ha NI (DS _ Hal) n C tgt T) as [(m & B & CM)|(x & i & o & k & dp & Hx & Ex & K & HG)].
  - right. right. right. exists m. split; [exact B|]. right. eapply chain_stands; eauto.
  - assert (TY : tgt = td_target k).
    { apply typedefs_in in T as [[]|(x2 & i2 & o2 & k2 & ds2 & Hx2 & Ex2 & K2 & ->)].
      assert (x2 = x) by (apply (FrontProps.same_entry l1); auto using l1_nodup; congruence). subst x2. congruence. }
    subst tgt. destruct (target_names _ _ _ _ _ _ _ _ ND PA US FR Hx K q NM) as [KN|DP]; [auto|].
    apply (needed_usable (API (x_info x) (KTypedef o dp))); [exact HG | apply not_ignored_is; reflexivity | constructor; exact DP].
Qed.
Lemma function_sig i f : In (API i (KFunction f)) (av_apis g) -> exists fn pv fa,
  In (XA i (XFunction fn pv (Some fa))) r /\ erase d (XA i (XFunction fn pv (Some fa))) = API i (KFunction f) /\ fa_ignore fa = None /\
  forall t q, In t (map snd (fa_params fa)) \/ fa_ret fa = Some t -> names t q -> accounted (fe_tc (x_env d l1)) (fa_deps fa) q \/ holder q.
Proof.
  intros H. destruct (unchanged _ _ _ _ _ _ v g _ v_nodup GC H) as (a & A1 & A2 & A3 & A4); [apply not_ignored_is; reflexivity|].
  assert (a = API i (KFunction f)).
  { destruct a as [ia ka]. destruct (match ka with KStruct _ => true | _ => false end) eqn:IS.
    - destruct ka; try discriminate. destruct (A4 s eq_refl) as (s' & E). discriminate E.
    - destruct A3 as [E _]; [intros s E; cbn in E; subst ka; discriminate IS | congruence]. }
  subst a. destruct A3 as [_ IG]; [discriminate|]. specialize (IG f eq_refl).
  rewrite v_apis in A1. apply in_map_iff in A1 as (x & Ex & Hx).
  destruct x as [ix kx]. unfold erase in Ex. cbn [x_info x_kind] in Ex.
  destruct kx as [| | | |fn pv an| | | |sd an| | | | | | | |]; try discriminate Ex; [|destruct an; discriminate Ex].
  destruct an as [fa|]; [|discriminate Ex]. injection Ex as -> <-. cbn in IG.
  exists fn, pv, fa. split; [exact Hx|]. split; [reflexivity|].
  assert (FI : fa_ignore fa = None) by (destruct (fa_ignore fa); [discriminate | reflexivity]). split; [exact FI|].
  destruct account_of as (st & AC).
  destruct (c82_result _ _ _ _ _ AC) as (_ & PR & _). destruct (PR _ Hx) as [P|(c & E)]; [|discriminate E].
  assert (X : exists name soph pre s s' nm, analyze_foreign_fn (x_env d l1) name fn soph pre s = (s', OOk (fa, nm))).
  { inversion P as [x I NF|name f0 fa0 nm O (pre & s & s' & Q & _)|name f0 sup sub name' f' fa0 nm O V S I1 I2 I3 I4 (pre & s & s' & Q & _)| | |
      n f0 pv0 fa0 b sup sub name' f' triv cpp fa' nm P0 K0 S0 I1 I2 (pre & s & s' & Q & _)|]; subst.
    - elim NF. exists fn, pv, (Some fa). reflexivity.
    - eauto 8.
    - eauto 8.
    - eauto 8. }
  destruct X as (name & soph & pre & s & s' & nm & Q).
  apply (signature_names (x_env d l1) _ _ _ _ _ _ _ _ tds_nodup (placeable_env d l1 l1_nodup (front_own _ _ _ ND OWN FR)) Q FI).
Qed.
End Signatures.

(** C84. Every type named in the signature of a function that is kept, once analysed, is built in, is the holder of a
    subclass or one of the C++ types made for a subclass, or is an item which is kept and is not in error; or the item was
    broken: it is one, or is reached through a typedef which is one, that needs a type which does not exist, or whose
    typedef lost its name to another item. Partial for this last alternative, which does happen: see the refutation below. *)
Theorem c84_signatures_partial : forall d l l1 r found out,
  NoDup (map xname l) -> FrontProps.parsed l -> uses_named l -> own_names l ->
  front (dc_front d) l = OOk l1 -> analyze_functions_x d l1 = OOk (r, found) -> kept d l = Some out ->
  forall i f, In (API i (KFunction f)) (av_apis out) ->
  exists fn pv fa, In (XA i (XFunction fn pv (Some fa))) r /\ erase d (XA i (XFunction fn pv (Some fa))) = API i (KFunction f) /\
    fa_ignore fa = None /\
    forall t q, In t (map snd (fa_params fa)) \/ fa_ret fa = Some t -> names t q ->
      known_name q \/ holder q \/ subclass_name (map (erase d) r) q \/
      (exists b, In b (av_apis out) /\ aname b = q /\ (~ ignored b \/ ctype_name q)) \/
      exists m, broken d l1 r m /\ (m = q \/ stands_for l1 m q).
Proof.
  intros d l l1 r found out ND PA US OWN FR AN K i f H. unfold kept, analyzed in K. rewrite FR, AN in K. unfold pipeline in K.
  destruct (to_gc _ _ _ _ _ _ _) as [g|] eqn:GC; [|discriminate]. injection K as <-.
  pose proof (v_nodup d l1 r found AN) as NV.
  assert (W : av_wf g).
  { destruct (stages _ _ _ _ _ _ _ g NV GC) as (abs & l2 & l4 & l5 & _ & _ & N5 & E). eapply gc_spec; eauto. }
  apply ctypes_in in H as [H|(q & H)]; [|discriminate H | exact W | apply not_ignored_is; reflexivity].
  destruct (function_sig d l l1 r found g ND OWN FR AN GC i f H) as (fn & pv & fa & H1 & H2 & H3 & H4).
  exists fn, pv, fa. repeat (split; [assumption|]). intros t q T NM. destruct (H4 t q T NM) as [A|A]; [|auto].
  assert (DS : forall x, In x (fa_deps fa) -> depends_on (API i (KFunction f)) x).
  { intros x Hx. constructor. unfold erase in H2. cbn [x_info x_kind] in H2. injection H2 as <-. exact Hx. }
  destruct (sig_usable d l l1 r found g ND PA US OWN FR AN GC _ _ q H ltac:(apply not_ignored_is; reflexivity) DS A) as [U|[U|[(b & B1 & B2 & B3)|U]]]; auto.
  right. right. right. left. destruct (ctypes_keep (ac_builtin (dc_front d)) g b W B1) as [(b' & C1 & C2) C3].
  destruct (ctype_name_dec q) as [CT|NC].
  - exists b'. split; [exact C1|]. split; [congruence | auto].
  - exists b. split; [apply C3; congruence|]. auto.
Qed.
Print Assumptions c84_signatures_partial.
Import FrontProps FnDriverModel.
(** A template instantiated within the argument of another: no item is made for the instantiation, the typedef mentioning it is
    refused, and the function taking the typedef is kept although the type in its signature does not exist.
    [template <class T> struct Tmpl; typedef std::unique_ptr<Tmpl<Base>> *PX; void f(PX);] *)
Definition demo3 : list xapi :=
  [named0 "Base" (XStruct (SD [BF (Some "x") true (TPath [] "i32" [])] false []) None); named0 "Tmpl" (XStruct (SD [] false ["T"]) None);
   named0 "PX" (XTypedef (TdType 0 (TPtr true (TPath ["root"; "std"] "unique_ptr" [TPath ["root"] "Tmpl" [rooted "Base"]]))) None None);
   named0 "f" (XFunction (Func "f" [("a", rooted "PX")] false None None VisPublic None None None None None None) PvOther None)].
Definition front_of (l : list xapi) : list xapi := match front demo_cfg l with OOk r => r | _ => [] end.
Definition analysed_of (l : list xapi) : list xapi * list (qname * IC.items) :=
  match analyze_functions_x dd (front_of l) with OOk p => p | _ => ([], []) end.
Definition kept_of (l : list xapi) : apivec := match kept dd l with Some v => v | None => av_new end.
Ltac in_run := first [left; reflexivity | right; in_run].

Theorem c84_dangling_refuted : exists d l l1 r found out i f fn pv fa t q,
  NoDup (map xname l) /\ FrontProps.parsed l /\ uses_named l /\ own_names l /\
  front (dc_front d) l = OOk l1 /\ analyze_functions_x d l1 = OOk (r, found) /\ kept d l = Some out /\
  In (API i (KFunction f)) (av_apis out) /\ In (XA i (XFunction fn pv (Some fa))) r /\
  In t (map snd (fa_params fa)) /\ names t q /\
  ~ known_name q /\ ~ holder q /\ ~ subclass_name (map (erase d) r) q /\ forall b, In b (av_apis out) -> aname b <> q.
Proof.
  eexists dd, demo3, (front_of demo3), (fst (analysed_of demo3)), (snd (analysed_of demo3)), (kept_of demo3), (AN (q0 "f") None), _, _, _, _,
    (TPtr true (TPath ["cxx"] "UniquePtr" [TPath ["output"] "Tmpl_Base_AutocxxConcrete" []])), (q0 "Tmpl_Base_AutocxxConcrete").
  split; [repeat constructor; cbn; intuition discriminate|]. split; [|split; [|split]].
  - intros x i o a H K. cbn in H. repeat (destruct H as [<-|H]; [cbn in K; congruence|]). destruct H.
  - intros x t o a H K. cbn in H. repeat (destruct H as [<-|H]; [cbn in K; congruence|]). destruct H.
  - intros x H _ (td & K)%known_name_get. cbn in H. repeat (destruct H as [<-|H]; [vm_compute in K; discriminate|]). destruct H.
  - split; [vm_compute; reflexivity|]. split; [vm_compute; reflexivity|]. split; [vm_compute; reflexivity|].
    split; [vm_compute; in_run|]. split; [vm_compute; in_run|]. split; [left; reflexivity|].
    split; [exists ["output"], "Tmpl_Base_AutocxxConcrete"; split; [apply pi_ptr; eapply pi_arg; [left; reflexivity | apply pi_here] | apply ref_module; auto]|].
    split; [intros (td & K)%known_name_get; vm_compute in K; discriminate|].
    split; [intros (h & sub & E & F); injection E as <-; vm_compute in F; discriminate|]. split.
    + intros (i & sup & H & _). vm_compute in H. repeat (destruct H as [H|H]; [discriminate H|]). destruct H.
    + intros b H. vm_compute in H. repeat (destruct H as [<-|H]; [vm_compute; discriminate|]). destruct H.
Qed.
Print Assumptions c84_dangling_refuted.

(** A case meeting the hypotheses: [typedef Base *B1;], [using B2 = B1], and [f], which takes a [B2] and a pointer to [Base] and
    returns a [B1]. The function is kept, its parameters are pointers to [Base], which is kept as a class. *)
Definition demo4 : list xapi :=
  [named0 "Base" (XStruct (SD [BF (Some "x") true (TPath [] "i32" [])] false []) None);
   named0 "B1" (XTypedef (TdType 0 (TPtr true (rooted "Base"))) None None);
   named0 "B2" (XTypedef (TdUse (rooted "B1")) (Some (q0 "B1")) None);
   named0 "f" (XFunction (Func "f" [("a", rooted "B2"); ("b", TPtr true (rooted "Base"))] false (Some (rooted "B1")) None VisPublic
     None None None None None None) PvOther None)].
Example c84_case :
  NoDup (map xname demo4) /\ FrontProps.parsed demo4 /\ uses_named demo4 /\ own_names demo4 /\
  front (dc_front dd) demo4 = OOk (front_of demo4) /\ analyze_functions_x dd (front_of demo4) = OOk (analysed_of demo4) /\
  kept dd demo4 = Some (kept_of demo4) /\
  exists f fn pv fa s, In (API (AN (q0 "f") None) (KFunction f)) (av_apis (kept_of demo4)) /\
    In (XA (AN (q0 "f") None) (XFunction fn pv (Some fa))) (fst (analysed_of demo4)) /\
    map snd (fa_params fa) = [TPtr true (TPath ["output"] "Base" []); TPtr true (TPath ["output"] "Base" [])] /\
    In (API (AN (q0 "Base") None) (KStruct s)) (av_apis (kept_of demo4)).
Proof.
  split; [repeat constructor; cbn; intuition discriminate|]. split; [|split; [|split]].
  - intros x i o a H K. cbn in H. repeat (destruct H as [<-|H]; [cbn in K; congruence|]). destruct H.
  - intros x t o a H K. cbn in H. repeat (destruct H as [<-|H]; [cbn in K; try discriminate|]); [|destruct H].
    injection K as <- <- <-. eexists _, _, _. split; [reflexivity|]. split; [reflexivity | apply ref_module; auto].
  - intros x H _ (td & K)%known_name_get. cbn in H. repeat (destruct H as [<-|H]; [vm_compute in K; discriminate|]). destruct H.
  - split; [vm_compute; reflexivity|]. split; [vm_compute; reflexivity|]. split; [vm_compute; reflexivity|].
    do 5 eexists. split; [vm_compute; in_run|]. split; [vm_compute; in_run|]. split; [reflexivity | vm_compute; in_run].
Qed.
