(** Proofs about dependency filtering. *)
From Verif Require Import Base ApiModel ApiVecModel ApiVecProofs RemoveIgnoredModel.

Lemma qset_of_In l n : In n (qset_of l) <-> In n l.
Proof. unfold qset_of. rewrite fold_qinsert_In. simpl; tauto. Qed.

Section P.
Variable builtin : string -> bool.
Variable known : qname -> bool.
Notation item := (ri_item builtin known).
Notation pass := (ri_pass builtin known).
Notation loop := (ri_loop builtin known).
Notation mk_ignored := (create_ignore_item builtin).

(** Specification: a dependency nothing can satisfy. *)
Definition unsatisfied (l : list api) (d : qname) : Prop :=
  known d = false /\ forall a, In a l -> is_ignored a = false -> ~ In d (valid_types a).

(** Specification: [tainted l a] - a chain of dependencies leads from [a] to an
    item ignored in the input or to an unsatisfied dependency. *)
Inductive tainted (l : list api) : api -> Prop :=
| taint_unknown a d : In d (deps a) -> unsatisfied l d -> tainted l a
| taint_ignored a b : In b l -> is_ignored b = true -> In (aname b) (deps a) -> tainted l a
| taint_chain a b : In b l -> tainted l b -> In (aname b) (deps a) -> tainted l a.

Definition valid_of (l : list api) : list qname :=
  qset_of (flat_map valid_types (filter (fun a => negb (is_ignored a)) l)).

Lemma valid_of_In l d :
  In d (valid_of l) <-> exists a, In a l /\ is_ignored a = false /\ In d (valid_types a).
Proof.
  unfold valid_of. rewrite qset_of_In, in_flat_map. split.
  - intros (a & Ha & Hd). apply filter_In in Ha. destruct Ha as [Ha Hn].
    apply negb_true_iff in Hn. eauto.
  - intros (a & Ha & Hn & Hd). exists a. split; [|exact Hd].
    apply filter_In. rewrite Hn; auto.
Qed.
Lemma missing_unsat l a d : ri_missing known (valid_of l) a = Some d ->
  In d (deps a) /\ unsatisfied l d.
Proof.
  intros H. apply find_some in H. destruct H as [Hd H].
  apply andb_true_iff in H. destruct H as [Hv Hk]. apply negb_true_iff in Hv, Hk.
  apply qmem_nIn in Hv. split; [exact Hd|]. split; [exact Hk|].
  intros b Hb Hi Hin. apply Hv, valid_of_In. eauto.
Qed.
Lemma missing_none l a : ri_missing known (valid_of l) a = None ->
  forall d, In d (deps a) -> known d = true \/ In d (valid_of l).
Proof.
  intros H d Hd. unfold ri_missing in H. apply find_none with (x := d) in H; [|exact Hd].
  apply andb_false_iff in H. destruct H as [H|H]; apply negb_false_iff in H; auto.
  right; apply qmem_In, H.
Qed.

Lemma ignored_no_deps a : is_ignored a = true -> deps a = [].
Proof. unfold is_ignored, deps. destruct (api_kind_of a); try discriminate; reflexivity. Qed.

(** How one output entry relates to its original entry. *)
Definition rel (l0 : list api) (ign : list qname) (a0 a : api) : Prop :=
  (a = a0 /\ (is_ignored a = true -> In (aname a) ign)) \/
  (is_ignored a0 = false /\ tainted l0 a0 /\
   ((exists ds, ds <> [] /\ incl ds (deps a0) /\ incl ds ign /\
       a = mk_ignored a0 (EIgnoredDependent ds) /\ In (aname a) ign) \/
    (exists d, In d (deps a0) /\ unsatisfied l0 d /\ (forall b, In b l0 -> aname b <> d) /\
       a = mk_ignored a0 (EUnknownDependent d)))).

Definition ign_ok (l0 : list api) (ign : list qname) : Prop :=
  (forall n, In n ign -> exists b, In b l0 /\ aname b = n /\ (is_ignored b = true \/ tainted l0 b)) /\
  (forall b, In b l0 -> is_ignored b = true -> In (aname b) ign).

Lemma rel_mono l0 ign ign' a0 a : incl ign ign' -> rel l0 ign a0 a -> rel l0 ign' a0 a.
Proof.
  intros Hi [[E H]|(H0 & T & [(ds & D1 & D2 & D3 & D4 & D5)|H])].
  - left. auto.
  - right. split; [exact H0|]. split; [exact T|]. left. exists ds.
    split; [exact D1|]. split; [exact D2|]. split; [|auto]. intros x Hx. auto.
  - right. auto.
Qed.
Lemma rel_name l0 ign a0 a : rel l0 ign a0 a -> aname a = aname a0.
Proof. intros [[-> _]|(_ & _ & [(ds & _ & _ & _ & -> & _)|(d & _ & _ & _ & ->)])]; reflexivity. Qed.
Lemma rel_ignored l0 ign a0 a : rel l0 ign a0 a -> is_ignored a = false -> a = a0.
Proof.
  intros [[-> _]|(_ & _ & [(ds & _ & _ & _ & -> & _)|(d & _ & _ & _ & ->)])] H; auto; discriminate.
Qed.

Lemma item_spec l0 ign a0 a a' ign' again :
  In a0 l0 -> ign_ok l0 ign -> rel l0 ign a0 a -> item (valid_of l0) ign a = (a', ign', again) ->
  incl ign ign' /\ ign_ok l0 ign' /\ rel l0 ign' a0 a' /\
  (again = true -> is_ignored a = false /\ is_ignored a' = true) /\
  (again = false -> ign' = ign /\
     (is_ignored a' = false -> a' = a /\ (forall d, In d (deps a') -> ~ In d ign) /\
        forall d, In d (deps a') -> known d = true \/ In d (valid_of l0))) /\
  (is_ignored a = true -> is_ignored a' = true).
Proof.
  intros H0 OK R E. unfold ri_item in E.
  destruct (qset_of (filter (fun d => qmem d ign) (deps a))) as [|b bad] eqn:B.
  - assert (NB : forall d, In d (deps a) -> ~ In d ign).
    { intros d Hd Hi. assert (In d (qset_of (filter (fun d => qmem d ign) (deps a)))) as X.
      { apply qset_of_In, filter_In. split; [exact Hd | apply qmem_In, Hi]. }
      rewrite B in X; destruct X. }
    destruct (ri_missing known (valid_of l0) a) as [d|] eqn:M; inversion E; subst a' ign' again; clear E.
    + apply missing_unsat in M. destruct M as [Hd U].
      assert (Na : is_ignored a = false).
      { destruct (is_ignored a) eqn:I; [|reflexivity]. rewrite (ignored_no_deps _ I) in Hd. destruct Hd. }
      assert (a = a0) as -> by (eapply rel_ignored; eauto).
      split; [apply incl_refl|]. split; [exact OK|]. split.
      { right. split; [exact Na|]. split; [eapply taint_unknown; eauto|]. right. exists d.
        split; [exact Hd|]. split; [exact U|]. split; [|reflexivity]. intros b Hb <-.
        destruct (is_ignored b) eqn:Ib.
        - apply (NB (aname b) Hd). destruct OK as [_ OK2]. apply OK2; assumption.
        - destruct U as [_ U]. apply (U b Hb Ib). unfold valid_types. destruct (api_kind_of b); left; reflexivity. }
      split; [discriminate|]. split; [|auto]. intros _. split; [reflexivity | discriminate].
    + split; [apply incl_refl|]. split; [exact OK|]. split; [exact R|].
      split; [discriminate|]. split; [|auto]. intros _. split; [reflexivity|].
      intros Hi. split; [reflexivity|]. split; [exact NB | apply missing_none, M].
  - inversion E; subst a' ign' again; clear E.
    assert (Hbad : forall d, In d (b :: bad) -> In d (deps a) /\ In d ign).
    { intros d Hd. rewrite <- B in Hd. apply qset_of_In, filter_In in Hd.
      destruct Hd as [Hd Hi]. split; [exact Hd | apply qmem_In, Hi]. }
    destruct (Hbad b (or_introl eq_refl)) as [Hbd Hbi].
    assert (Na : is_ignored a = false).
    { destruct (is_ignored a) eqn:I; [|reflexivity]. rewrite (ignored_no_deps _ I) in Hbd. destruct Hbd. }
    assert (a = a0) as -> by (eapply rel_ignored; eauto).
    assert (T : tainted l0 a0).
    { destruct OK as [OK1 _]. destruct (OK1 b Hbi) as (c & Hc & Hn & [Hi|Ht]); subst b.
      - eapply taint_ignored; eauto.
      - eapply taint_chain; eauto. }
    assert (Hincl : incl ign (qinsert (aname a0) ign)) by (intros x Hx; apply qinsert_In; auto).
    split; [exact Hincl|]. split.
    { destruct OK as [OK1 OK2]. split.
      - intros n Hn. apply qinsert_In in Hn. destruct Hn as [->|Hn]; [|auto]. exists a0. auto.
      - intros c Hc Hi. apply qinsert_In. right. auto. }
    split.
    { right. split; [exact Na|]. split; [exact T|]. left. exists (b :: bad).
      split; [discriminate|]. split; [intros d Hd; apply Hbad, Hd|].
      split; [intros d Hd; apply Hincl, Hbad, Hd|]. split; [reflexivity|].
      apply qinsert_In. left. reflexivity. }
    split; [auto|]. split; [discriminate|]. congruence.
Qed.

Definition nreal (l : list api) : nat := length (filter (fun a => negb (is_ignored a)) l).

Lemma pass_spec l0 : forall l0s l ign l' ign' again,
  incl l0s l0 -> ign_ok l0 ign -> Forall2 (rel l0 ign) l0s l ->
  pass (valid_of l0) ign l = (l', ign', again) ->
  incl ign ign' /\ ign_ok l0 ign' /\ Forall2 (rel l0 ign') l0s l' /\
  nreal l' <= nreal l /\
  (again = true -> nreal l' < nreal l) /\
  (again = false -> ign' = ign /\
     forall a, In a l' -> is_ignored a = false ->
       (forall d, In d (deps a) -> ~ In d ign) /\
       forall d, In d (deps a) -> known d = true \/ In d (valid_of l0)).
Proof.
  intros l0s l; revert l0s; induction l as [|a l IH]; intros l0s ign l' ign' again Hin OK F E.
  - inversion F; subst. simpl in E. inversion E; subst.
    split; [apply incl_refl|]. split; [exact OK|]. split; [constructor|]. split; [lia|].
    split; [discriminate|]. intros _. split; [reflexivity | intros a []].
  - inversion F as [|a0 a1 l0s' l1 Ra Fa]; subst. simpl in E.
    destruct (item (valid_of l0) ign a) as [[a' ign1] ag1] eqn:Ei.
    destruct (pass (valid_of l0) ign1 l) as [[l'' ign2] ag2] eqn:Ep.
    inversion E; subst; clear E.
    assert (Ha0 : In a0 l0) by (apply Hin; left; reflexivity).
    destruct (item_spec l0 ign a0 a a' ign1 ag1 Ha0 OK Ra Ei) as (I1 & I2 & I3 & I4 & I5 & I6).
    assert (F1 : Forall2 (rel l0 ign1) l0s' l).
    { clear -Fa I1. induction Fa; constructor; auto. eapply rel_mono; eauto. }
    assert (Hin' : incl l0s' l0) by (intros x Hx; apply Hin; right; exact Hx).
    destruct (IH l0s' ign1 l'' ign' ag2 Hin' I2 F1 Ep) as (J1 & J2 & J3 & J4 & J5 & J6).
    split; [eapply incl_tran; eauto|]. split; [exact J2|]. split.
    { constructor; [eapply rel_mono; eauto | exact J3]. }
    assert (Hc : nreal (a' :: l'') <= nreal (a :: l) /\ (ag1 || ag2 = true -> nreal (a' :: l'') < nreal (a :: l))).
    { unfold nreal in *. simpl. destruct (is_ignored a) eqn:Ia.
      - rewrite (I6 eq_refl). simpl. split; [exact J4|]. intros H. apply orb_true_iff in H.
        destruct H as [H|H]; [destruct (I4 H); discriminate | apply J5, H].
      - destruct (is_ignored a') eqn:Ia'; simpl; (split; [lia|]).
        + intros _; lia.
        + intros H. apply orb_true_iff in H. destruct H as [H|H].
          * destruct (I4 H); discriminate.
          * specialize (J5 H). lia. }
    destruct Hc as [Hc1 Hc2]. split; [exact Hc1|]. split; [exact Hc2|].
    intros H. apply orb_false_iff in H. destruct H as [H1 H2].
    destruct (I5 H1) as [-> K1]. destruct (J6 H2) as [-> K2]. split; [reflexivity|].
    intros c [<-|Hc] Hi; [|apply K2; auto]. apply K1, Hi.
Qed.

Lemma Forall2_names l0 ign l0s l : Forall2 (rel l0 ign) l0s l -> map aname l = map aname l0s.
Proof. induction 1 as [|a0 a l0s l R F IH]; simpl; [reflexivity|]. f_equal; [eapply rel_name; eauto | exact IH]. Qed.

Lemma loop_spec l0 : NoDup (map aname l0) -> forall fuel l ign,
  ign_ok l0 ign -> Forall2 (rel l0 ign) l0 l -> nreal l < fuel ->
  exists out ign', loop fuel (valid_of l0) ign l = RiDone out /\
    ign_ok l0 ign' /\ Forall2 (rel l0 ign') l0 out /\
    forall a, In a out -> is_ignored a = false ->
      (forall d, In d (deps a) -> ~ In d ign') /\
      forall d, In d (deps a) -> known d = true \/ In d (valid_of l0).
Proof.
  intros N. induction fuel as [|fuel IH]; intros l ign OK F L; [lia|]. simpl.
  destruct (pass (valid_of l0) ign l) as [[l' ign'] again] eqn:E.
  destruct (pass_spec l0 l0 l ign l' ign' again (incl_refl _) OK F E) as (I1 & I2 & I3 & I4 & I5 & I6).
  assert (Nl' : NoDup (map aname l')) by (rewrite (Forall2_names _ _ _ _ I3); exact N).
  rewrite (from_list_nodup builtin l' Nl'). destruct again.
  - apply IH; auto. specialize (I5 eq_refl). lia.
  - exists l', ign'. split; [reflexivity|]. split; [exact I2|]. split; [exact I3|].
    destruct (I6 eq_refl) as [-> K]. exact K.
Qed.

Lemma filter_ignored_spec l : NoDup (map aname l) ->
  exists out ign', filter_ignored builtin known l = RiDone out /\
    ign_ok l ign' /\ Forall2 (rel l ign') l out /\
    forall a, In a out -> is_ignored a = false ->
      (forall d, In d (deps a) -> ~ In d ign') /\
      forall d, In d (deps a) -> known d = true \/ In d (valid_of l).
Proof.
  intros N. unfold filter_ignored. fold (valid_of l).
  set (ign := qset_of (map aname (filter is_ignored l))).
  assert (Hign : forall n, In n ign <-> exists b, In b l /\ aname b = n /\ is_ignored b = true).
  { intros n. unfold ign. rewrite qset_of_In, in_map_iff. split.
    - intros (b & Hn & Hb). apply filter_In in Hb. exists b. tauto.
    - intros (b & Hb & Hn & Hi). exists b. split; [exact Hn | apply filter_In; auto]. }
  apply loop_spec.
  - exact N.
  - split.
    + intros n Hn. apply Hign in Hn. destruct Hn as (b & H1 & H2 & H3). exists b; auto.
    + intros b Hb Hi. apply Hign. exists b; auto.
  - assert (G : forall s, incl s l -> Forall2 (rel l ign) s s).
    { induction s as [|a s IH]; intros Hs; constructor.
      - left. split; [reflexivity|]. intros Hi. apply Hign. exists a.
        split; [apply Hs; left; reflexivity | auto].
      - apply IH. intros x Hx. apply Hs. right; exact Hx. }
    apply G, incl_refl.
  - unfold nreal. assert (X : forall s : list api, length (filter (fun a => negb (is_ignored a)) s) <= length s).
    { induction s as [|a s IH]; simpl; [lia|]. destruct (negb (is_ignored a)); simpl; lia. }
    specialize (X l). lia.
Qed.
End P.
