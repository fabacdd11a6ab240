(** Proofs about the API collection (ApiVecModel). *)
From Verif Require Import Base ApiModel ApiVecModel.

(** The representation invariant. *)
Definition av_wf (v : apivec) : Prop :=
  NoDup (map aname (av_apis v)) /\
  (forall n, In n (av_names v) <-> In n (map aname (av_apis v))).

Lemma av_wf_new : av_wf av_new.
Proof. split; [constructor | intros n; simpl; tauto]. Qed.

Lemma fold_qinsert_In l s n :
  In n (fold_left (fun s n => qinsert n s) l s) <-> In n s \/ In n l.
Proof.
  revert s; induction l as [|x l IH]; simpl; intros s; [tauto|].
  rewrite IH, qinsert_In; intuition.
Qed.

Lemma av_wf_retain p v : av_wf v -> av_wf (av_retain p v).
Proof.
  intros [H1 H2]; split; simpl.
  - apply NoDup_map_filter; exact H1.
  - intros n; rewrite fold_qinsert_In; simpl; tauto.
Qed.

Lemma av_wf_add v a : av_wf v -> ~ In (aname a) (av_names v) -> av_wf (av_add v a).
Proof.
  intros [H1 H2] H; split; simpl.
  - rewrite map_app; simpl. apply NoDup_app_intro; [exact H1 | repeat constructor; auto |].
    intros x Hx [<-|[]]; apply H, H2, Hx.
  - intros n; rewrite qinsert_In, H2, map_app, in_app_iff; simpl; intuition.
Qed.

Section P.
Variable builtin : string -> bool.
Notation push := (av_push builtin).
Notation extend := (av_extend builtin).

Lemma av_retain_other_nIn v n :
  ~ In n (av_names (av_retain (fun b => negb (qn_eqb (aname b) n)) v)).
Proof.
  simpl; rewrite fold_qinsert_In; simpl. intros [[]|H].
  apply in_map_iff in H; destruct H as [b [<- Hb]].
  apply filter_In in Hb; destruct Hb as [_ Hb]. rewrite qn_eqb_refl in Hb; discriminate.
Qed.

(** What a push does to the contents, case by case. *)
Lemma push_fresh v a :
  av_wf v -> ~ In (aname a) (map aname (av_apis v)) ->
  av_apis (push v a) = av_apis v ++ [a].
Proof.
  intros [_ W] H. unfold av_push. destruct (qmem (aname a) (av_names v)) eqn:E; [|reflexivity].
  apply qmem_In, W in E; contradiction.
Qed.
Lemma push_dup_ignored v a :
  av_wf v -> In (aname a) (map aname (av_apis v)) -> is_ignored a = true -> push v a = v.
Proof.
  intros [_ W] H I. unfold av_push. rewrite I.
  destruct (qmem (aname a) (av_names v)) eqn:E; [reflexivity|].
  apply qmem_nIn in E; rewrite W in E; contradiction.
Qed.
Lemma push_dup_real v a :
  av_wf v -> In (aname a) (map aname (av_apis v)) -> is_ignored a = false ->
  av_apis (push v a) =
    filter (fun b => negb (qn_eqb (aname b) (aname a))) (av_apis v)
    ++ [duplicate_marker builtin (aname a)].
Proof.
  intros [_ W] H I. unfold av_push. rewrite I.
  destruct (qmem (aname a) (av_names v)) eqn:E;
    [|apply qmem_nIn in E; rewrite W in E; contradiction].
  unfold av_push_marker.
  assert (N := av_retain_other_nIn v (aname a)). apply qmem_nIn in N. rewrite N. reflexivity.
Qed.

Lemma av_wf_push v a : av_wf v -> av_wf (push v a).
Proof.
  intros W. unfold av_push. destruct (qmem (aname a) (av_names v)) eqn:E.
  - destruct (is_ignored a); [exact W|]. unfold av_push_marker.
    assert (N := av_retain_other_nIn v (aname a)).
    rewrite (proj2 (qmem_nIn _ _) N).
    apply av_wf_add; [apply av_wf_retain, W | exact N].
  - apply av_wf_add; [exact W | apply qmem_nIn, E].
Qed.
Lemma av_wf_extend v l : av_wf v -> av_wf (extend v l).
Proof.
  revert v; induction l as [|a l IH]; simpl; intros v W; [exact W|]. apply IH, av_wf_push, W.
Qed.
Lemma av_wf_from_list l : av_wf (av_from_list builtin l).
Proof. apply av_wf_extend, av_wf_new. Qed.
Lemma av_wf_step v o : av_wf v -> av_wf (av_step builtin v o).
Proof.
  destruct o; simpl; intros W.
  - apply av_wf_push, W.
  - apply av_wf_extend, W.
  - apply av_wf_extend, W.
  - apply av_wf_retain, W.
Qed.
Lemma av_wf_run ops : av_wf (av_run builtin ops).
Proof.
  unfold av_run. generalize av_wf_new. generalize av_new.
  induction ops as [|o ops IH]; simpl; intros v W; [exact W | apply IH, av_wf_step, W].
Qed.

(** Names after a push. *)
Lemma push_names v a n :
  av_wf v ->
  In n (map aname (av_apis (push v a))) <-> n = aname a \/ In n (map aname (av_apis v)).
Proof.
  intros W. destruct (in_dec qname_eq_dec (aname a) (map aname (av_apis v))) as [H|H].
  - destruct (is_ignored a) eqn:I.
    + rewrite push_dup_ignored by auto. split; [auto | intros [->|?]; auto].
    + rewrite push_dup_real, map_app, in_app_iff by auto. simpl. split.
      * intros [Hn|[<-|[]]]; [|auto]. right.
        apply in_map_iff in Hn; destruct Hn as [b [<- Hb]]. apply filter_In in Hb.
        apply in_map; tauto.
      * intros [->|Hn]; [auto|]. apply in_map_iff in Hn; destruct Hn as [b [<- Hb]].
        destruct (qname_eq_dec (aname b) (aname a)) as [E|N]; [auto|]. left.
        apply in_map, filter_In; split; [exact Hb | apply negb_true_iff, qn_eqb_neq, N].
  - rewrite push_fresh, map_app, in_app_iff by auto. simpl; intuition.
Qed.
Lemma extend_names v l n :
  av_wf v ->
  In n (map aname (av_apis (extend v l))) <->
  In n (map aname (av_apis v)) \/ In n (map aname l).
Proof.
  revert v; induction l as [|a l IH]; simpl; intros v W; [tauto|].
  rewrite IH by (apply av_wf_push, W). rewrite push_names by exact W. intuition.
Qed.
Lemma from_list_names l n :
  In n (map aname (av_apis (av_from_list builtin l))) <-> In n (map aname l).
Proof. unfold av_from_list. rewrite extend_names by apply av_wf_new. simpl; tauto. Qed.

(** The entry stored under a name, and how the history determines it. *)
Definition entry (v : apivec) (n : qname) (a : api) : Prop := In a (av_apis v) /\ aname a = n.

Lemma entry_unique v n a b : av_wf v -> entry v n a -> entry v n b -> a = b.
Proof.
  intros [W _] [Ha Ea] [Hb Eb]. eapply NoDup_map_inj_in; eauto. congruence.
Qed.

(** Other names are not disturbed by a push. *)
Lemma push_other v a b :
  av_wf v -> aname b <> aname a -> (In b (av_apis (push v a)) <-> In b (av_apis v)).
Proof.
  intros W N. destruct (in_dec qname_eq_dec (aname a) (map aname (av_apis v))) as [H|H].
  - destruct (is_ignored a) eqn:I.
    + rewrite push_dup_ignored by auto. tauto.
    + rewrite push_dup_real, in_app_iff, filter_In by auto. simpl. split.
      * intros [[Hb _]|[<-|[]]]; [exact Hb | elim N; reflexivity].
      * intros Hb. left; split; [exact Hb | apply negb_true_iff, qn_eqb_neq, N].
  - rewrite push_fresh, in_app_iff by auto. simpl. split; [|auto].
    intros [Hb|[<-|[]]]; [exact Hb | elim N; reflexivity].
Qed.

(** The full functional contents of a collection built from a list [l]:
    for every name, what the entry is depends only on the subsequence of [l]
    with that name. *)
Definition named (n : qname) (l : list api) : list api := filter (fun a => qn_eqb (aname a) n) l.

(** Independent description of the survivor among same-named candidates:
    the first one if all later ones are ignored items, otherwise the marker. *)
Definition survivor (n : qname) (cands : list api) : option api :=
  match cands with
  | [] => None
  | a :: rest => if forallb is_ignored rest then Some a else Some (duplicate_marker builtin n)
  end.

Lemma push_entry v a n c :
  av_wf v -> aname a = n ->
  entry (push v a) n c <->
  (~ In n (map aname (av_apis v)) /\ c = a) \/
  (In n (map aname (av_apis v)) /\ is_ignored a = true /\ entry v n c) \/
  (In n (map aname (av_apis v)) /\ is_ignored a = false /\ c = duplicate_marker builtin n).
Proof.
  intros W En. unfold entry. subst n.
  destruct (in_dec qname_eq_dec (aname a) (map aname (av_apis v))) as [H|H].
  - destruct (is_ignored a) eqn:I.
    + rewrite push_dup_ignored by auto. intuition congruence.
    + rewrite push_dup_real, in_app_iff, filter_In by auto. simpl. split.
      * intros [[[Hb Hn]|[<-|[]]] E]; [|auto].
        rewrite E, qn_eqb_refl in Hn; discriminate.
      * intros [[? _]|[(_ & ? & _)|(_ & _ & ->)]]; [contradiction | discriminate |].
        split; [auto | reflexivity].
  - rewrite push_fresh, in_app_iff by auto. simpl. split.
    + intros [[Hb|[<-|[]]] E]; [|auto]. elim H. rewrite <- E. now apply in_map.
    + intros [[_ ->]|[(? & _)|(? & _)]]; [auto | contradiction | contradiction].
Qed.

Lemma survivor_snoc n l a :
  survivor n (l ++ [a]) =
  match l with
  | [] => Some a
  | _ => if is_ignored a then survivor n l else Some (duplicate_marker builtin n)
  end.
Proof.
  destruct l as [|b l]; [reflexivity|]. cbn [app survivor]. rewrite forallb_app. cbn [forallb].
  destruct (forallb is_ignored l), (is_ignored a); reflexivity.
Qed.

Lemma extend_snoc v l a : extend v (l ++ [a]) = push (extend v l) a.
Proof. unfold av_extend. rewrite fold_left_app. reflexivity. Qed.

Lemma from_list_entry l n c :
  entry (av_from_list builtin l) n c <-> survivor n (named n l) = Some c.
Proof.
  induction l as [|a l IH] using rev_ind.
  - unfold entry; simpl. split; [tauto | discriminate].
  - unfold av_from_list in *. rewrite extend_snoc. unfold named. rewrite filter_app. cbn [filter].
    fold (named n l).
    assert (W := av_wf_from_list l). unfold av_from_list in W.
    destruct (qname_eq_dec (aname a) n) as [E|N].
    + apply qn_eqb_eq in E as E'. rewrite E'. rewrite survivor_snoc, push_entry by auto.
      assert (X : In n (map aname (av_apis (extend av_new l))) <-> named n l <> []).
      { fold (av_from_list builtin l). rewrite from_list_names. unfold named. split.
        - intros H. apply in_map_iff in H. destruct H as [b [Eb Hb]].
          assert (Hf : In b (filter (fun a => qn_eqb (aname a) n) l)).
          { apply filter_In; split; [exact Hb | apply qn_eqb_eq, Eb]. }
          intros H0; rewrite H0 in Hf; destruct Hf.
        - destruct (filter _ l) as [|b t] eqn:F; [congruence|]. intros _.
          assert (Hf : In b (filter (fun a => qn_eqb (aname a) n) l)) by (rewrite F; left; auto).
          apply filter_In in Hf. destruct Hf as [Hb Eb]. apply qn_eqb_eq in Eb.
          rewrite <- Eb; apply in_map, Hb. }
      rewrite X, IH. destruct (named n l) as [|b t] eqn:Enl.
      * split; [intros [[_ ->]|[(H & _)|(H & _)]]; [reflexivity|congruence|congruence]|].
        intros H; inversion H; subst; left; split; [tauto | reflexivity].
      * destruct (is_ignored a) eqn:I.
        -- split; [intros [[H _]|[(_ & _ & H)|(_ & H & _)]]; [exfalso; apply H; discriminate|exact H|discriminate]|].
           intros H; right; left; split; [discriminate | auto].
        -- split; [intros [[H _]|[(_ & H & _)|(_ & _ & ->)]]; [exfalso; apply H; discriminate|discriminate|reflexivity]|].
           intros H; inversion H; subst; right; right; split; [discriminate | auto].
    + apply qn_eqb_neq in N as N'. rewrite N', app_nil_r, <- IH. unfold entry.
      split; intros [H1 H2]; (split; [|exact H2]);
        eapply push_other; try exact H1; try exact W; congruence.
Qed.

(** Distinct names: collecting is the identity. *)
Lemma extend_nodup v l :
  av_wf v -> NoDup (map aname (av_apis v ++ l)) -> av_apis (extend v l) = av_apis v ++ l.
Proof.
  revert v; induction l as [|a l IH]; simpl; intros v W N; [now rewrite app_nil_r|].
  assert (H : ~ In (aname a) (map aname (av_apis v))).
  { rewrite map_app in N. apply NoDup_app_inv in N. destruct N as (_ & _ & N).
    intros H; eapply N; [exact H | simpl; auto]. }
  assert (E := push_fresh v a W H).
  rewrite IH; [rewrite E, <- app_assoc; reflexivity | apply av_wf_push, W |].
  rewrite E, <- app_assoc. exact N.
Qed.
Lemma from_list_nodup l :
  NoDup (map aname l) -> av_apis (av_from_list builtin l) = l.
Proof. intros N. unfold av_from_list. rewrite extend_nodup; auto. apply av_wf_new. Qed.

(** An ignored name stays ignored whatever is pushed later. *)
Lemma push_ignored_stays v a n c :
  av_wf v -> entry v n c -> is_ignored c = true ->
  exists c', entry (push v a) n c' /\ is_ignored c' = true.
Proof.
  intros W E I. destruct (qname_eq_dec (aname a) n) as [En|Nn].
  - assert (Hin : In n (map aname (av_apis v))).
    { destruct E as [H1 <-]. now apply in_map. }
    destruct (is_ignored a) eqn:Ia.
    + exists c; split; [|exact I]. apply push_entry; auto.
    + exists (duplicate_marker builtin n); split; [|reflexivity]. apply push_entry; auto.
  - exists c; split; [|exact I]. destruct E as [H1 <-]. split; [|reflexivity].
    apply push_other; auto.
Qed.
Lemma extend_ignored_stays v l n c :
  av_wf v -> entry v n c -> is_ignored c = true ->
  exists c', entry (extend v l) n c' /\ is_ignored c' = true.
Proof.
  revert v c; induction l as [|a l IH]; simpl; intros v c W E I; [eauto|].
  destruct (push_ignored_stays v a n c W E I) as (c' & E' & I').
  eapply IH; eauto. apply av_wf_push, W.
Qed.
End P.
