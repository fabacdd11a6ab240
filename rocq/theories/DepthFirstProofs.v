(** Proofs about the fields-and-bases-first traversal. *)
From Coq Require Import Relations Wellfounded.
From Verif Require Import Base ApiVecProofs DepthFirstModel.

(** A finite non-empty set where everything has a successor contains a cycle. *)
Lemma finite_cycle {A} (R : A -> A -> Prop) :
  (forall x y z, R x y -> R y z -> R x z) ->
  forall S : list A, S <> [] ->
  (forall x, In x S -> exists y, In y S /\ R x y) -> exists x, In x S /\ R x x.
Proof.
  intros T S. induction S as [|x S IH]; [congruence|]. intros _ H.
  destruct (H x (or_introl eq_refl)) as [sx [[<-|Hsx] Rx]].
  - exists x; split; [left|]; auto.
  - destruct IH as [c [Hc Rc]].
    + intros ->; destruct Hsx.
    + intros y Hy. destruct (H y (or_intror Hy)) as [sy [[<-|Hsy] Ry]]; [exists sx | exists sy]; eauto.
    + exists c; split; [right|]; auto.
Qed.

Section P.
Variable A : Type.
Variable name : A -> qname.
Variable fbdeps : A -> list qname.
Notation ready := (ready A fbdeps).
Notation df_loop := (df_loop A name fbdeps).
Notation df_next := (df_next A name fbdeps).
Notation df_drive := (df_drive A name fbdeps).

Lemma ready_true ytd c : ready ytd c = true <-> forall d, In d (fbdeps c) -> ~ In d ytd.
Proof.
  unfold ready. rewrite negb_true_iff. split.
  - intros H d Hd Hy. assert (X : existsb (fun d => qmem d ytd) (fbdeps c) = true).
    { apply existsb_exists; exists d; split; [exact Hd | apply qmem_In, Hy]. }
    congruence.
  - intros H. destruct (existsb _ _) eqn:E; [|reflexivity].
    apply existsb_exists in E. destruct E as [d [Hd Hy]]. apply qmem_In in Hy. elim (H d Hd Hy).
Qed.
Lemma ready_false ytd c : ready ytd c = false <-> exists d, In d (fbdeps c) /\ In d ytd.
Proof.
  unfold ready. rewrite negb_false_iff, existsb_exists.
  split; intros [d [H1 H2]]; exists d; (split; [exact H1 | apply qmem_In, H2]).
Qed.

(** The loop, with [rot] the candidates already rotated to the back. *)
Lemma df_loop_spec rest : forall c fuel f rot ytd,
  NoDup (map name (rot ++ c :: rest)) ->
  (forall c, In c rot -> ready ytd c = false) ->
  name (hd c rot) = f ->
  length rest < fuel ->
  match df_loop fuel (Some f) (c :: rest ++ rot) ytd with
  | NextNone => False
  | NextItem c' q y =>
      ready ytd c' = true /\ y = qremove (name c') ytd /\ Permutation (c' :: q) (c :: rest ++ rot)
  | NextPanic => forall c', In c' (c :: rest ++ rot) -> ready ytd c' = false
  | NextFuel => False
  end.
Proof.
  induction rest as [|r rest IH]; intros c fuel f rot ytd N U F L;
    (destruct fuel as [|fuel]; [inversion L|]); cbn [DepthFirstModel.df_loop].
  - destruct (ready ytd c) eqn:R.
    + split; [exact R|]. split; [reflexivity | apply Permutation_refl].
    + cbn [app]. destruct rot as [|r0 rot']; cbn [app hd] in *.
      * rewrite F, qn_eqb_refl. intros c' [<-|[]]. exact R.
      * rewrite F, qn_eqb_refl. intros c' [<-|H]; auto.
  - destruct (ready ytd c) eqn:R.
    + split; [exact R|]. split; [reflexivity | apply Permutation_refl].
    + cbn [app].
      destruct (qn_eqb (name r) f) eqn:E.
      * exfalso. apply qn_eqb_eq in E. rewrite <- F in E. rewrite map_app in N. cbn [map] in N.
        destruct rot as [|r0 rot']; cbn [hd map app] in *.
        -- inversion N as [|x l Hn _]; subst. apply Hn. rewrite E. left; reflexivity.
        -- inversion N as [|x l Hn _]; subst. apply Hn. rewrite <- E, in_app_iff. cbn. auto.
      * specialize (IH r fuel f (rot ++ [c]) ytd).
        assert (N' : NoDup (map name ((rot ++ [c]) ++ r :: rest))).
        { rewrite <- app_assoc. exact N. }
        assert (U' : forall d, In d (rot ++ [c]) -> ready ytd d = false).
        { intros d Hd. apply in_app_iff in Hd. destruct Hd as [Hd|[<-|[]]]; auto. }
        assert (F' : name (hd r (rot ++ [c])) = f) by (destruct rot; exact F).
        specialize (IH N' U' F'). cbn [length] in L. specialize (IH ltac:(lia)).
        rewrite app_assoc in IH. rewrite <- app_assoc in IH |- *.
        replace (rest ++ rot ++ [c]) with ((rest ++ rot) ++ [c]) in IH |- * by (now rewrite app_assoc).
        assert (PP : Permutation (r :: (rest ++ rot) ++ [c]) (c :: (r :: rest) ++ rot)).
        { change (r :: (rest ++ rot) ++ [c]) with ((r :: rest ++ rot) ++ [c]).
          apply Permutation_sym, Permutation_cons_append. }
        destruct (df_loop fuel (Some f) (r :: (rest ++ rot) ++ [c]) ytd) as [|c' q y| |].
        -- exact IH.
        -- destruct IH as (I1 & I2 & I3). split; [exact I1|]. split; [exact I2|].
           eapply Permutation_trans; [exact I3 | exact PP].
        -- intros c' Hc'. apply IH. eapply Permutation_in; [apply Permutation_sym, PP | exact Hc'].
        -- exact IH.
Qed.

Lemma df_next_spec q ytd :
  NoDup (map name q) ->
  match df_next q ytd with
  | NextNone => q = []
  | NextItem c q' y => ready ytd c = true /\ y = qremove (name c) ytd /\ Permutation (c :: q') q
  | NextPanic => q <> [] /\ forall c, In c q -> ready ytd c = false
  | NextFuel => False
  end.
Proof.
  intros N. unfold df_next. destruct q as [|c rest]; [reflexivity|].
  assert (H := df_loop_spec rest c (S (length (c :: rest))) (name c) [] ytd N).
  specialize (H ltac:(intros ? []) eq_refl). cbn [length] in *. specialize (H ltac:(lia)).
  rewrite app_nil_r in H.
  destruct (df_loop _ _ (c :: rest) ytd); [contradiction | exact H | | contradiction].
  split; [discriminate | exact H].
Qed.

(** Dependency between items of the collection. *)
Definition dep_in (l : list A) (x y : A) : Prop := In x l /\ In y l /\ In (name y) (fbdeps x).

Definition ordered (all out : list A) : Prop :=
  forall o1 x o2, out = o1 ++ x :: o2 ->
    forall y, In y all -> In (name y) (fbdeps x) -> In y o1.

Lemma df_drive_spec all : NoDup (map name all) -> forall fuel q ytd acc,
  Permutation (acc ++ q) all ->
  (forall n, In n ytd <-> In n (map name q)) ->
  ordered all acc -> length q < fuel ->
  match df_drive fuel q ytd acc with
  | TDone out => Permutation out all /\ ordered all out
  | TPanic => exists x, clos_trans A (dep_in all) x x
  | TFuel => False
  end.
Proof.
  intros Nall. induction fuel as [|fuel IH]; intros q ytd acc P Y O L; [lia|].
  cbn [DepthFirstModel.df_drive].
  assert (Nq : NoDup (map name q)).
  { assert (X : NoDup (map name (acc ++ q))).
    { eapply Permutation_NoDup; [apply Permutation_map, Permutation_sym, P | exact Nall]. }
    rewrite map_app in X. apply NoDup_app_inv in X. tauto. }
  assert (H := df_next_spec q ytd Nq).
  destruct (df_next q ytd) as [|c q' y| |].
  - subst q. rewrite app_nil_r in P. split; assumption.
  - destruct H as (R & -> & Pq). apply IH.
    + rewrite <- app_assoc. cbn [app]. eapply Permutation_trans; [|exact P].
      apply Permutation_app_head, Pq.
    + intros n. unfold qremove. rewrite filter_In, Y, negb_true_iff, qn_eqb_neq.
      assert (Nc : NoDup (map name (c :: q'))).
      { eapply Permutation_NoDup; [apply Permutation_map, Permutation_sym, Pq | exact Nq]. }
      assert (M : In n (map name q) <-> In n (map name (c :: q'))).
      { split; apply Permutation_in; apply Permutation_map; [apply Permutation_sym|]; exact Pq. }
      rewrite M. cbn [map]. inversion Nc as [|x l Hn _]; subst. split.
      * intros [[E|H] Ne]; [congruence | exact H].
      * intros H. split; [right; exact H | intros E; subst n; contradiction].
    + intros o1 x o2 E y Hy Hd.
      destruct o2 as [|z o2 _] using rev_ind.
      * apply app_inj_tail in E. destruct E as [-> ->].
        rewrite ready_true in R. specialize (R _ Hd). rewrite Y in R.
        assert (In y (o1 ++ q)) as I by (eapply Permutation_in; [apply Permutation_sym, P | exact Hy]).
        apply in_app_iff in I. destruct I as [I|I]; [exact I|]. elim R. now apply in_map.
      * change (o1 ++ x :: o2 ++ [z]) with (o1 ++ (x :: o2) ++ [z]) in E.
        rewrite app_assoc in E. apply app_inj_tail in E. destruct E as [E _].
        eapply O; eauto.
    + apply Permutation_length in Pq. cbn [length] in Pq. lia.
  - destruct H as [Hne Hu].
    assert (Hin : forall x, In x q -> In x all).
    { intros x Hx. eapply Permutation_in; [exact P | apply in_app_iff; auto]. }
    destruct (finite_cycle (clos_trans A (dep_in all))) with (S := q) as [x [_ C]].
    + intros x y z Hxy Hyz. eapply t_trans; eauto.
    + exact Hne.
    + intros x Hx. apply Hu in Hx as R. apply ready_false in R. destruct R as [d [Hd Hy]].
      apply Y, in_map_iff in Hy. destruct Hy as [y [<- Hy]].
      exists y. split; [exact Hy|]. apply t_step. split; [auto|]. split; auto.
    + exists x; exact C.
  - exact H.
Qed.

Lemma fold_qinsert_names l n :
  In n (fold_left (fun s n => qinsert n s) (map name l) []) <-> In n (map name l).
Proof. rewrite fold_qinsert_In. simpl; tauto. Qed.

Lemma traverse_spec l : NoDup (map name l) ->
  match fields_and_bases_first A name fbdeps l with
  | TDone out => Permutation out l /\ ordered l out
  | TPanic => exists x, clos_trans A (dep_in l) x x
  | TFuel => False
  end.
Proof.
  intros N. apply df_drive_spec; auto.
  - intros n. apply fold_qinsert_names.
  - intros o1 x o2 E. destruct o1; discriminate.
Qed.

(** An ordering excludes cycles. *)
Lemma ordered_acyclic l out :
  Permutation out l -> ordered l out -> forall x, ~ clos_trans A (dep_in l) x x.
Proof.
  intros P O.
  assert (AccAll : forall pre, (exists post, out = pre ++ post) ->
            forall x, In x pre -> Acc (fun a b => dep_in l b a) x).
  { induction pre as [|c pre IH] using rev_ind; [intros _ x []|].
    intros [post E] x Hx. rewrite <- app_assoc in E. cbn [app] in E.
    apply in_app_iff in Hx. destruct Hx as [Hx|[<-|[]]]; [apply IH; eauto|].
    constructor. intros y (_ & Hy & Hd). apply IH; [eauto|]. eapply O; eauto. }
  assert (W : forall x, In x l -> Acc (fun a b => dep_in l b a) x).
  { intros x Hx. apply (AccAll out); [exists []; now rewrite app_nil_r|].
    eapply Permutation_in; [apply Permutation_sym, P | exact Hx]. }
  intros x C.
  assert (Hx : In x l).
  { assert (G : forall a b, clos_trans A (dep_in l) a b -> In a l).
    { intros a b H; induction H as [a b (H & _)|]; auto. }
    eapply G, C. }
  assert (Acc (clos_trans A (fun a b => dep_in l b a)) x) as Hacc by (apply Acc_clos_trans, W, Hx).
  assert (C' : clos_trans A (fun a b => dep_in l b a) x x).
  { assert (G : forall a b, clos_trans A (dep_in l) a b -> clos_trans A (fun a b => dep_in l b a) b a).
    { intros a b H; induction H as [|a b c H1 I1 H2 I2]; [now apply t_step | eapply t_trans; eauto]. }
    apply G, C. }
  clear -Hacc C'. induction Hacc as [x _ IH]. exact (IH x C' C').
Qed.
End P.
