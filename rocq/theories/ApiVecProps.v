(** C01, C02: the API collection. *)
From Verif Require Import Base ApiModel ApiSpec ApiVecModel ApiVecProofs.

(** Specification vocabulary: an operation history is any list of operations;
    "holds n" means some API in the vector carries name n. *)
Definition holds (v : apivec) (n : qname) : Prop := exists a, In a (av_apis v) /\ aname a = n.
Definition one_api_per_name (v : apivec) : Prop :=
  forall l1 a l2 b l3, av_apis v = l1 ++ a :: l2 ++ b :: l3 -> aname a <> aname b.

(** C01. *)
Theorem c01_one_api_per_name :
  forall builtin ops,
    one_api_per_name (av_run builtin ops) /\
    (forall n, In n (av_names (av_run builtin ops)) <-> holds (av_run builtin ops) n).
Proof.
  intros builtin ops. destruct (av_wf_run builtin ops) as [N I]. split.
  - intros l1 a l2 b l3 E H. rewrite E, map_app in N. apply NoDup_app_inv in N.
    destruct N as (_ & N & _). simpl in N. inversion N as [|x l Hn _]; subst.
    apply Hn. rewrite H, map_app, in_app_iff. right; left; reflexivity.
  - intros n. rewrite I, in_map_iff. unfold holds.
    split; intros (a & H1 & H2); exists a; auto.
Qed.
Print Assumptions c01_one_api_per_name.

(** The collection drained by [append] is the exception: it ends up empty but
    its index still lists the old names. No caller reuses a drained collection. *)
Theorem c01_drained_collection_index_stale :
  forall builtin v l n, In n (map aname l) ->
    let drained := snd (av_append builtin v (av_from_list builtin l)) in
    av_apis drained = [] /\ In n (av_names drained).
Proof.
  intros builtin v l n H. simpl. split; [reflexivity|].
  apply (av_wf_from_list builtin l). apply from_list_names, H.
Qed.
Print Assumptions c01_drained_collection_index_stale.

Example c01_case :
  let a := API (AN (QN ["ns"] "A") None) KEnum in
  let b := API (AN (QN [] "B") None) KConst in
  let v := av_run (fun _ => false) [OpPush a; OpExtend [b; a]; OpRetain (fun _ => true); OpAppend [a]] in
  map aname (av_apis v) = [QN [] "B"; QN ["ns"] "A"] /\
  map is_ignored (av_apis v) = [false; true].
Proof. vm_compute. split; reflexivity. Qed.

(** C02. Names: after pushing [l] one by one onto any reachable collection the
    names held are exactly the old ones and the pushed ones. *)
Theorem c02_no_name_vanishes :
  forall builtin ops l n,
    holds (av_extend builtin (av_run builtin ops) l) n <->
    holds (av_run builtin ops) n \/ exists a, In a l /\ aname a = n.
Proof.
  intros builtin ops l n.
  assert (E := extend_names builtin (av_run builtin ops) l n (av_wf_run builtin ops)).
  rewrite !in_map_iff in E. unfold holds. split.
  - intros (a & H1 & H2). destruct E as [E _].
    destruct E as [(b & Hb1 & Hb2)|(b & Hb1 & Hb2)]; [exists a; auto | left; exists b; auto | right; exists b; auto].
  - intros H. destruct E as [_ E]. destruct E as (b & Hb1 & Hb2); [|exists b; auto].
    destruct H as [(b & Hb1 & Hb2)|(b & Hb1 & Hb2)]; [left | right]; exists b; auto.
Qed.
Print Assumptions c02_no_name_vanishes.

(** Two real items under one name: the entry left is an ignored item recording a
    duplicate, wherever in the sequence the two items were. *)
Theorem c02_clash_leaves_duplicate_marker :
  forall builtin l1 a l2 b l3,
    aname a = aname b -> ~ ignored a -> ~ ignored b ->
    exists m, In m (av_apis (av_from_list builtin (l1 ++ a :: l2 ++ b :: l3))) /\
      aname m = aname a /\
      exists ctx, api_kind_of m = KIgnored EDuplicateItems ctx.
Proof.
  intros builtin l1 a l2 b l3 En Ia Ib. apply not_ignored_is in Ia, Ib.
  exists (duplicate_marker builtin (aname a)).
  assert (H : entry (av_from_list builtin (l1 ++ a :: l2 ++ b :: l3)) (aname a)
                (duplicate_marker builtin (aname a))).
  { apply from_list_entry. unfold named. rewrite filter_app. cbn [filter].
    rewrite qn_eqb_refl, filter_app. cbn [filter]. rewrite <- En, qn_eqb_refl.
    destruct (filter _ l1) as [|c t]; cbn [app survivor].
    - rewrite forallb_app. cbn [forallb]. rewrite Ib, andb_false_r. reflexivity.
    - rewrite forallb_app. cbn [forallb]. rewrite Ia, andb_false_r. reflexivity. }
  destruct H as [H1 H2]. split; [exact H1|]. split; [reflexivity|]. eexists; reflexivity.
Qed.
Print Assumptions c02_clash_leaves_duplicate_marker.

(** Once a name is ignored no sequence of pushes makes it real again. *)
Theorem c02_ignored_stays_ignored :
  forall builtin ops l c,
    In c (av_apis (av_run builtin ops)) -> ignored c ->
    (exists c', In c' (av_apis (av_extend builtin (av_run builtin ops) l)) /\ aname c' = aname c) /\
    (forall c', In c' (av_apis (av_extend builtin (av_run builtin ops) l)) ->
                aname c' = aname c -> ignored c').
Proof.
  intros builtin ops l c H I. apply ignored_is in I.
  destruct (extend_ignored_stays builtin (av_run builtin ops) l (aname c) c
              (av_wf_run builtin ops) (conj H eq_refl) I) as (c' & E & I').
  split; [exists c'; exact E|]. intros d Hd En. apply ignored_is.
  rewrite <- (entry_unique _ _ _ _ (av_wf_extend builtin _ l (av_wf_run builtin ops)) E (conj Hd En)).
  exact I'.
Qed.
Print Assumptions c02_ignored_stays_ignored.

(** A push leaves every entry under another name exactly as it was. *)
Theorem c02_push_leaves_other_names_alone :
  forall builtin ops a b, aname b <> aname a ->
    (In b (av_apis (av_push builtin (av_run builtin ops) a)) <-> In b (av_apis (av_run builtin ops))).
Proof. intros builtin ops a b. apply push_other, av_wf_run. Qed.
Print Assumptions c02_push_leaves_other_names_alone.

(** Exact outcome of collecting a list. The first item of a name stays when every later one of that
    name is an ignored item; as soon as one later item is real, the name holds the duplicate
    marker, even if the first one was only an ignored item. *)
Theorem c02_exact_outcome :
  forall builtin l1 a l2, (forall x, In x l1 -> aname x <> aname a) ->
    let out := av_apis (av_from_list builtin (l1 ++ a :: l2)) in
    ((forall x, In x l2 -> aname x = aname a -> ignored x) -> In a out) /\
    ((exists x, In x l2 /\ aname x = aname a /\ ~ ignored x) ->
       exists m, In m out /\ an_name (api_info m) = aname a /\
         exists ctx, api_kind_of m = KIgnored EDuplicateItems ctx).
Proof.
  intros builtin l1 a l2 H1 out.
  assert (E : named (aname a) (l1 ++ a :: l2) = a :: named (aname a) l2).
  { unfold named. rewrite filter_app. cbn [filter]. rewrite qn_eqb_refl.
    replace (filter (fun x => qn_eqb (aname x) (aname a)) l1) with (@nil api); [reflexivity|].
    symmetry. clear -H1. induction l1 as [|x l IH]; [reflexivity|]. cbn [filter].
    destruct (qn_eqb (aname x) (aname a)) eqn:Q; [apply qn_eqb_eq in Q; elim (H1 x (or_introl eq_refl) Q)|].
    apply IH. intros y Hy. apply H1. right; exact Hy. }
  split.
  - intros H. assert (X : entry (av_from_list builtin (l1 ++ a :: l2)) (aname a) a); [|apply X].
    apply from_list_entry. rewrite E. cbn [survivor]. replace (forallb is_ignored (named (aname a) l2)) with true; [reflexivity|].
    symmetry. apply forallb_forall. intros x Hx. apply filter_In in Hx. destruct Hx as [Hx Hn].
    apply ignored_is, H; [exact Hx | apply qn_eqb_eq, Hn].
  - intros (x & Hx & Hn & Hi). apply not_ignored_is in Hi. exists (duplicate_marker builtin (aname a)).
    assert (X : entry (av_from_list builtin (l1 ++ a :: l2)) (aname a) (duplicate_marker builtin (aname a))).
    { apply from_list_entry. rewrite E. cbn [survivor].
      destruct (forallb is_ignored (named (aname a) l2)) eqn:F; [|reflexivity]. exfalso.
      assert (Y := proj1 (forallb_forall _ _) F x). rewrite Hi in Y. discriminate Y.
      apply filter_In. split; [exact Hx | apply qn_eqb_eq, Hn]. }
    split; [apply X|]. split; [reflexivity|]. eexists; reflexivity.
Qed.
Print Assumptions c02_exact_outcome.

Example c02_case :
  let a := API (AN (QN [] "A") None) KEnum in
  let i := API (AN (QN [] "A") None) (KIgnored EAbstractNested None) in
  map is_ignored (av_apis (av_from_list (fun _ => false) [a; i; a])) = [true] /\
  map is_ignored (av_apis (av_from_list (fun _ => false) [i; a])) = [true] /\
  map is_ignored (av_apis (av_from_list (fun _ => false) [a; i])) = [false].
Proof. vm_compute. repeat split; reflexivity. Qed.
