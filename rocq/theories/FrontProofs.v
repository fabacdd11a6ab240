(** Facts about FrontModel: the list which stands for [ApiVec], and the loop over APIs. *)
From Verif Require Import Base QNamesModel KnownTypesModel ApiModel TypesModel ConcreteNamesModel TypeConverterModel
  ByValueModel SynthNamesModel FnAnalysisModel SubclassGenModel FrontModel.

Section FrontProofs.
Variable cfg : acfg.
Notation xpush := (xpush cfg). Notation xextend := (xextend cfg). Notation xmarker := (xmarker cfg).

Lemma xmarker_name n : xname (xmarker n) = n. Proof. reflexivity. Qed.

Lemma xpush_names v x n : In n (map xname (xpush v x)) <-> In n (map xname v) \/ n = xname x.
Proof.
  unfold FrontModel.xpush. destruct (qmem (xname x) (map xname v)) eqn:M.
  - apply qmem_In in M. destruct (x_ignored x).
    + split; [tauto | intros [H|H]; [exact H | subst; exact M]].
    + rewrite map_app, in_app_iff. cbn [map]. rewrite xmarker_name. split.
      * intros [H|[H|[]]]; [left | right; congruence].
        apply in_map_iff in H as (y & E & H). apply filter_In in H as [H _]. apply in_map_iff. eauto.
      * intros [H|H]; [|right; left; congruence].
        destruct (qn_eqb n (xname x)) eqn:E; [apply qn_eqb_eq in E; right; left; congruence|].
        left. apply in_map_iff in H as (y & Ey & H). apply in_map_iff. exists y. split; [exact Ey|].
        apply filter_In. split; [exact H|]. rewrite Ey, E. reflexivity.
  - rewrite map_app, in_app_iff. cbn. intuition congruence.
Qed.
Lemma xpush_nodup v x : NoDup (map xname v) -> NoDup (map xname (xpush v x)).
Proof.
  intros ND. unfold FrontModel.xpush. destruct (qmem (xname x) (map xname v)) eqn:M.
  - destruct (x_ignored x); [exact ND|]. rewrite map_app. apply NoDup_app_intro.
    + apply NoDup_map_filter, ND.
    + cbn. constructor; [intros [] | constructor].
    + intros n H [H2|[]]. rewrite xmarker_name in H2. apply in_map_iff in H as (y & E & H). apply filter_In in H as [_ H].
      rewrite <- E in H2. rewrite H2, qn_eqb_refl in H. discriminate.
  - apply qmem_nIn in M. rewrite map_app. apply NoDup_app_intro; [exact ND | cbn; constructor; [intros [] | constructor] |].
    intros n H [H2|[]]. subst n. contradiction.
Qed.
Lemma xextend_names l : forall v n, In n (map xname (xextend v l)) <-> In n (map xname v) \/ In n (map xname l).
Proof.
  induction l as [|x l IH]; intros v n; cbn.
  - tauto.
  - unfold FrontModel.xextend in *. rewrite IH, xpush_names. intuition congruence.
Qed.
Lemma xextend_nodup l : forall v, NoDup (map xname v) -> NoDup (map xname (xextend v l)).
Proof. induction l as [|x l IH]; intros v ND; cbn; [exact ND|]. apply IH, xpush_nodup, ND. Qed.

(** What is found afterwards was there, was added, or marks a clash. *)
Lemma xpush_in v x y : In y (xpush v x) -> In y v \/ y = x \/ (y = xmarker (xname x) /\ In (xname x) (map xname v)).
Proof.
  unfold FrontModel.xpush. destruct (qmem (xname x) (map xname v)) eqn:M.
  - apply qmem_In in M. destruct (x_ignored x); [tauto|]. rewrite in_app_iff. intros [H|[H|[]]].
    + apply filter_In in H. tauto.
    + right. right. split; [congruence | exact M].
  - rewrite in_app_iff. intros [H|[H|[]]]; [left; exact H | right; left; congruence].
Qed.
Lemma xextend_in l : forall v y, In y (xextend v l) ->
  In y v \/ In y l \/ exists x, In x l /\ y = xmarker (xname x).
Proof.
  induction l as [|x l IH]; intros v y H; cbn in H; [left; exact H|].
  apply IH in H as [H|[H|(z & Hz & E)]].
  - apply xpush_in in H as [H|[H|(H & _)]]; [left; exact H | right; left; left; congruence |].
    right. right. exists x. split; [left; reflexivity | exact H].
  - right. left. right. exact H.
  - right. right. exists z. split; [right; exact Hz | exact E].
Qed.
Lemma xpush_keeps v x y : In y v -> xname y <> xname x -> In y (xpush v x).
Proof.
  intros H N. unfold FrontModel.xpush. destruct (qmem (xname x) (map xname v)); [|apply in_app_iff; left; exact H].
  destruct (x_ignored x); [exact H|]. apply in_app_iff. left. apply filter_In. split; [exact H|].
  destruct (qn_eqb (xname y) (xname x)) eqn:E; [|reflexivity]. apply qn_eqb_eq in E. contradiction.
Qed.
Lemma xextend_keeps l : forall v y, In y v -> ~ In (xname y) (map xname l) -> In y (xextend v l).
Proof.
  induction l as [|x l IH]; intros v y H N; cbn; [exact H|]. apply IH.
  - apply xpush_keeps; [exact H|]. intros E. apply N. left. symmetry. exact E.
  - intros I. apply N. right. exact I.
Qed.
Lemma xpush_fresh v x : ~ In (xname x) (map xname v) -> xpush v x = v ++ [x].
Proof. intros N. unfold FrontModel.xpush. apply qmem_nIn in N. rewrite N. reflexivity. Qed.
Lemma xextend_app l m v : xextend v (l ++ m) = xextend (xextend v l) m.
Proof. unfold FrontModel.xextend. apply fold_left_app. Qed.
Lemma xextend_fresh l : forall v, NoDup (map xname l) -> (forall n, In n (map xname v) -> ~ In n (map xname l)) ->
  xextend v l = v ++ l.
Proof.
  induction l as [|x l IH]; intros v ND N; cbn; [symmetry; apply app_nil_r|]. cbn in ND. inversion ND as [|? ? N1 ND1]; subst.
  rewrite xpush_fresh.
  - change (xextend (v ++ [x]) l = v ++ x :: l). rewrite (IH (v ++ [x])); [rewrite <- app_assoc; reflexivity | exact ND1 |].
    intros n H. rewrite map_app, in_app_iff in H. destruct H as [H|[H|[]]].
    + intros I. apply (N n H). right. exact I.
    + subst n. exact N1.
  - intros I. apply (N _ I). left. reflexivity.
Qed.
Lemma xextend_id l : NoDup (map xname l) -> xextend [] l = l.
Proof. intros ND. rewrite xextend_fresh; [reflexivity | exact ND | intros n []]. Qed.
(** An element whose name occurs once is kept. *)
Lemma xextend_once l1 x l2 v : ~ In (xname x) (map xname v) -> ~ In (xname x) (map xname l1) -> ~ In (xname x) (map xname l2) ->
  In x (xextend v (l1 ++ x :: l2)).
Proof.
  intros N0 N1 N2. rewrite xextend_app. cbn. change (In x (xextend (xpush (xextend v l1) x) l2)). apply xextend_keeps; [|exact N2].
  rewrite xpush_fresh; [apply in_app_iff; right; left; reflexivity|]. rewrite xextend_names. tauto.
Qed.
(** A clash of two items which are no ignored items leaves the marker. *)
Lemma xextend_marker l : forall v x, In x l -> In (xname x) (map xname (xextend v l)).
Proof. intros v x H. apply xextend_names. right. apply in_map, H. Qed.

(** ** The loop *)
Lemma x_convert_forall2 {S} (f : S -> xapi -> S * out xapi) (P : xapi -> xapi -> Prop) l : forall s s' r,
  (forall s s1 x y, f s x = (s1, OOk y) -> In x l -> P x y) ->
  (forall s s1 x e, f s x = (s1, OErr e) -> In x l -> P x (x_error cfg x e)) ->
  x_convert cfg f s l = (s', OOk r) -> Forall2 P l r.
Proof.
  induction l as [|x l IH]; intros s s' r H1 H2 H; cbn in H.
  - injection H as <- <-. constructor.
  - destruct (f s x) as [s1 o] eqn:F.
    assert (X : forall y, (o = OOk y \/ exists e, o = OErr e /\ y = x_error cfg x e) ->
      match x_convert cfg f s1 l with (s2, OOk ys) => (s2, OOk (y :: ys)) | q => q end = (s', OOk r) -> Forall2 P (x :: l) r).
    { intros y Ho Q. destruct (x_convert cfg f s1 l) as [s2 [ys|e| |]] eqn:C; try (injection Q as _ Q; congruence).
      injection Q as <- <-. constructor.
      - destruct Ho as [->|(e & -> & ->)]; [eapply H1 | eapply H2]; eauto; left; reflexivity.
      - eapply IH; [| | exact C]; intros; [eapply H1 | eapply H2]; eauto; right; assumption. }
    destruct o as [y|e| |]; try discriminate.
    + apply (X y); [left; reflexivity | exact H].
    + apply (X (x_error cfg x e)); [right; eauto | exact H].
Qed.
End FrontProofs.
