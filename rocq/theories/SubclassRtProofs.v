(** The invariant of subclass instances (see SubclassRtProps.v for the theorems). *)
From Verif Require Import Base SubclassRtModel.
Open Scope list_scope.

Definition cnt {A} (f : A -> bool) (l : list A) : nat := List.length (filter f l).

Definition is_up (i : nat) (f : frame) : bool :=
  match f with FUpcall _ j _ => Nat.eqb i j | _ => false end.
Definition is_new (i : nat) (f : frame) : bool :=
  match f with FNew _ j => Nat.eqb i j | _ => false end.
Definition is_sh (i : nat) (f : frame) : bool :=
  Nat.eqb i (frame_cell f) && match frame_access f with Shared => true | Exclusive => false end.
Definition is_ex (i : nat) (f : frame) : bool :=
  Nat.eqb i (frame_cell f) && match frame_access f with Shared => false | Exclusive => true end.

Definition occ (l : list nat) (i : nat) : nat := count_occ Nat.eq_dec l i.

(** The strong reference a peer holds. *)
Definition strong_of (p : peer) : nat :=
  match p with PLive (Some (RStrong _)) => 1 | _ => 0 end.

Definition flag_ok (b : flag) (ns nx : nat) : Prop :=
  match b with
  | BNone => ns = 0 /\ nx = 0
  | BShared n => ns = S n /\ nx = 0
  | BMut => ns = 0 /\ nx = 1
  end.

Definition home (m : mode) (i : nat) : cpp_holder :=
  match m with CppOwned => HUnowned i | _ => HOwned i end.

(** What holds of one instance. [R], [U]: handles to cell and peer; [u], [g], [n]:
    upcalls, guards and constructors in progress; [ns], [nx]: shared and exclusive
    frames. *)
Definition good (m : mode) (i : nat) (c : option cell) (p : peer)
  (R U u g n ns nx : nat) : Prop :=
  match c with
  | None => R + u + n + strong_of p = 0 /\ g = 0
  | Some (Cell st b h) =>
      st = R + u + n + strong_of p /\ 0 < st /\ flag_ok b ns nx /\
      h = (match n with 0 => home m i | _ => HEmpty end)
  end /\
  match p with
  | PLive o =>
      (o = Some (RStrong i) /\ m <> RustOwned \/ o = Some (RWeak i)) /\
      (match m with CppOwned => U + n = 1 | _ => c <> None end)
  | PFreed => match m with CppOwned => U + n = 0 | _ => c = None end
  end /\
  (m = CppOwned -> R = 0) /\ (m <> CppOwned -> U = 0) /\
  n <= 1 /\ (n = 1 -> R = 0 /\ U = 0) /\ (0 < g -> 0 < R) /\
  ns + nx = u + g + n.

Definition good_at (s : state) (m : mode) (i : nat) (c : option cell) (p : peer) : Prop :=
  good m i c p (occ (rcs s) i) (occ (ups s) i)
    (cnt (is_up i) (frames s)) (cnt (guard_of i) (frames s)) (cnt (is_new i) (frames s))
    (cnt (is_sh i) (frames s)) (cnt (is_ex i) (frames s)).

Definition frame_ok (ms : list mode) (f : frame) : Prop :=
  frame_cell f < List.length ms /\
  match f with
  | FUpcall p i _ => p = i
  | FNew m i => nth_error ms i = Some m
  | FGuard _ _ => True
  end.

Definition inv (s : state) : Prop :=
  List.length (cells s) = List.length (modes s) /\
  List.length (peers s) = List.length (modes s) /\
  (forall i m, nth_error (modes s) i = Some m ->
     exists c p, nth_error (cells s) i = Some c /\ nth_error (peers s) i = Some p /\
       good_at s m i c p) /\
  (forall f, In f (frames s) -> frame_ok (modes s) f) /\
  (forall i, In i (rcs s) \/ In i (ups s) -> i < List.length (modes s)) /\
  vals s = [].

(** * Lists *)

Lemma upd_len {A} (l : list A) i x : List.length (upd l i x) = List.length l.
Proof. revert i; induction l as [|y l IH]; intros [|i]; cbn; auto. Qed.

Lemma upd_same {A} (l : list A) i x : i < List.length l -> nth_error (upd l i x) i = Some x.
Proof.
  revert i; induction l as [|y l IH]; intros [|i]; cbn; intro H; try lia; [reflexivity|].
  apply IH. lia.
Qed.

Lemma upd_other {A} (l : list A) i j x : j <> i -> nth_error (upd l i x) j = nth_error l j.
Proof.
  revert i j; induction l as [|y l IH]; intros [|i] [|j] H; cbn; try reflexivity; try congruence.
  apply IH. congruence.
Qed.

Lemma upd_id {A} (l : list A) i x : nth_error l i = Some x -> upd l i x = l.
Proof.
  revert i; induction l as [|y l IH]; intros [|i]; cbn; intro H; try discriminate; [congruence|].
  now rewrite IH.
Qed.

Lemma upd_upd {A} (l : list A) i x y : upd (upd l i x) i y = upd l i y.
Proof. revert i; induction l as [|z l IH]; intros [|i]; cbn; try reflexivity. now rewrite IH. Qed.

Lemma nth_len {A} (l : list A) i x : nth_error l i = Some x -> i < List.length l.
Proof. intro H. apply nth_error_Some. congruence. Qed.

Lemma cnt_cons {A} (f : A -> bool) x l : cnt f (x :: l) = (if f x then 1 else 0) + cnt f l.
Proof. unfold cnt. cbn. destruct (f x); reflexivity. Qed.

Lemma cnt_remove {A} (g : A -> bool) l k x :
  nth_error l k = Some x -> cnt g l = (if g x then 1 else 0) + cnt g (remove_nth k l).
Proof.
  revert k; induction l as [|y l IH]; intros [|k]; cbn [nth_error remove_nth]; intro H;
    try discriminate.
  - inversion H; subst. apply cnt_cons.
  - rewrite !cnt_cons, (IH k H). lia.
Qed.

Lemma cnt_pos {A} (f : A -> bool) l x : In x l -> f x = true -> 0 < cnt f l.
Proof.
  induction l as [|y l IH]; [intros []|]. rewrite cnt_cons. intros [->|I] H; [rewrite H; lia|].
  specialize (IH I H). lia.
Qed.

Lemma cnt_zero {A} (f : A -> bool) l : existsb f l = false -> cnt f l = 0.
Proof.
  induction l as [|x l IH]; [reflexivity|]. cbn [existsb]. rewrite cnt_cons.
  destruct (f x); cbn; [discriminate|]. exact IH.
Qed.

Lemma in_remove_nth {A} (l : list A) k x : In x (remove_nth k l) -> In x l.
Proof.
  revert k; induction l as [|y l IH]; intros [|k]; cbn; auto. intros [->|I]; eauto.
Qed.

Lemma occ_cons x l i : occ (x :: l) i = (if Nat.eqb i x then 1 else 0) + occ l i.
Proof.
  unfold occ. cbn. destruct (Nat.eq_dec x i) as [->|N].
  - now rewrite Nat.eqb_refl.
  - destruct (Nat.eqb_spec i x); [congruence|reflexivity].
Qed.

Lemma occ_remove1 l x i :
  existsb (Nat.eqb x) l = true -> occ l i = (if Nat.eqb i x then 1 else 0) + occ (remove1 x l) i.
Proof.
  induction l as [|y l IH]; cbn [existsb remove1]; [discriminate|].
  destruct (Nat.eqb_spec x y) as [->|N]; cbn [orb].
  - intros _. apply occ_cons.
  - intro H. rewrite !occ_cons, (IH H). lia.
Qed.

Lemma occ_in l i : existsb (Nat.eqb i) l = true <-> 0 < occ l i.
Proof.
  unfold occ. pose proof (count_occ_In Nat.eq_dec l i) as W. unfold gt in W. rewrite <- W.
  rewrite existsb_exists. split.
  - intros [x [I E]]. apply Nat.eqb_eq in E as <-. exact I.
  - intro I. exists i. split; [exact I|apply Nat.eqb_refl].
Qed.

Lemma in_remove1 l x i : In i (remove1 x l) -> In i l.
Proof.
  induction l as [|y l IH]; cbn; [auto|]. destruct (Nat.eqb x y); cbn; [auto|].
  intros [->|I]; auto.
Qed.

(** * Other instances are not touched *)

Definition counts_same (s s' : state) (j : nat) : Prop :=
  occ (rcs s') j = occ (rcs s) j /\ occ (ups s') j = occ (ups s) j /\
  cnt (is_up j) (frames s') = cnt (is_up j) (frames s) /\
  cnt (guard_of j) (frames s') = cnt (guard_of j) (frames s) /\
  cnt (is_new j) (frames s') = cnt (is_new j) (frames s) /\
  cnt (is_sh j) (frames s') = cnt (is_sh j) (frames s) /\
  cnt (is_ex j) (frames s') = cnt (is_ex j) (frames s).

Lemma inv_at s s' i m c p :
  inv s -> nth_error (modes s) i = Some m ->
  cells s' = upd (cells s) i c -> peers s' = upd (peers s) i p -> modes s' = modes s ->
  (forall j, j <> i -> counts_same s s' j) ->
  good_at s' m i c p ->
  (forall f, In f (frames s') -> frame_ok (modes s) f) ->
  (forall j, In j (rcs s') \/ In j (ups s') -> j < List.length (modes s)) ->
  vals s' = [] -> inv s'.
Proof.
  intros (L1 & L2 & G & _ & _) M C P Ms O Gi F H V.
  assert (Li : i < List.length (modes s)) by exact (nth_len _ _ _ M).
  unfold inv. rewrite C, P, Ms, !upd_len. split; [exact L1|]. split; [exact L2|].
  split; [|split; [exact F|split; [exact H|exact V]]].
  - intros j mj Mj. destruct (Nat.eq_dec j i) as [->|N].
    + exists c, p. rewrite !upd_same by lia. rewrite M in Mj. inversion Mj; subst. auto.
    + rewrite !upd_other by exact N. destruct (G j mj Mj) as (cj & pj & Cj & Pj & Gj).
      exists cj, pj. split; [exact Cj|]. split; [exact Pj|]. destruct (O j N) as (E1 & E2 & E3 & E4 & E5 & E6 & E7).
      unfold good_at. rewrite E1, E2, E3, E4, E5, E6, E7. exact Gj.
Qed.

(** * Dropping *)

Lemma drop_cell_more f s i n b h :
  nth_error (cells s) i = Some (Some (Cell (S (S n)) b h)) ->
  drop (S f) (inl i) s = Next (set_cell i (Some (Cell (S n) b h)) s).
Proof. intro H. cbn. unfold the_cell. rewrite H. reflexivity. Qed.

Lemma drop_cell_last f s i b h :
  nth_error (cells s) i = Some (Some (Cell 1 b h)) ->
  drop (S f) (inl i) s =
  match h with HOwned p => drop f (inr p) (set_cell i None s) | _ => Next (set_cell i None s) end.
Proof. intro H. cbn. unfold the_cell. rewrite H. reflexivity. Qed.

Lemma drop_peer f s p o :
  nth_error (peers s) p = Some (PLive o) ->
  drop (S f) (inr p) s =
  match o with Some (RStrong i) => drop f (inl i) (set_peer p PFreed s) | _ => Next (set_peer p PFreed s) end.
Proof. intro H. cbn. rewrite H. reflexivity. Qed.

(** Dropping one strong reference of an instance in order, with the flag and peer
    afterwards. *)
Lemma drop_strong_ok f s m i st b h o :
  3 <= f ->
  nth_error (cells s) i = Some (Some (Cell (S st) b h)) ->
  nth_error (peers s) i = Some o ->
  (h = HEmpty \/ h = home m i) ->
  (m <> CppOwned -> h = home m i -> st = 0 -> exists x, o = PLive x /\ strong_of o = 0) ->
  drop f (inl i) s =
  Next match st with
       | S n => set_cell i (Some (Cell st b h)) s
       | 0 => match h with
              | HOwned _ => set_peer i PFreed (set_cell i None s)
              | _ => set_cell i None s
              end
       end.
Proof.
  intros Lf C P Hh D. destruct f as [|[|[|f]]]; try lia. destruct st as [|n].
  - rewrite (drop_cell_last _ _ _ _ _ C). destruct Hh as [->| ->]; [reflexivity|].
    unfold home in *. destruct m; [reflexivity| |];
      (destruct D as [x [-> Sx]]; [discriminate|reflexivity|reflexivity|];
       rewrite (drop_peer _ _ i x); [|cbn; exact P];
       destruct x as [[|]|]; [discriminate Sx|reflexivity|reflexivity]).
  - now apply drop_cell_more.
Qed.

(** * Events *)

Lemma inv_index s i :
  inv s -> i < List.length (modes s) ->
  exists m c p, nth_error (modes s) i = Some m /\ nth_error (cells s) i = Some c /\
    nth_error (peers s) i = Some p /\ good_at s m i c p.
Proof.
  intros (_ & _ & G & _) L. destruct (nth_error (modes s) i) as [m|] eqn:M.
  - destruct (G i m M) as (c & p & C & P & H). exists m, c, p. auto.
  - apply nth_error_None in M. lia.
Qed.

Lemma counts_refl s j : counts_same s s j.
Proof. repeat split. Qed.

Lemma inv_begin s m : inv s -> inv (new_begin m s).
Proof.
  intros (L1 & L2 & G & F & H & V). unfold new_begin.
  assert (Hn : forall i, List.length (modes s) <= i ->
            occ (rcs s) i = 0 /\ occ (ups s) i = 0 /\ forall f, In f (frames s) -> frame_cell f <> i).
  { intros i Li. split; [|split].
    - apply count_occ_not_In. intro I. specialize (H i (or_introl I)). lia.
    - apply count_occ_not_In. intro I. specialize (H i (or_intror I)). lia.
    - intros f I E. destruct (F f I) as [B _]. lia. }
  set (i := List.length (modes s)) in *.
  assert (Hz : forall g : frame -> bool, (forall f, frame_cell f <> i -> g f = false) -> cnt g (frames s) = 0).
  { intros g Hg. destruct (Hn i (le_n _)) as (_ & _ & Hf). apply cnt_zero.
    destruct (existsb g (frames s)) eqn:E; [|reflexivity].
    apply existsb_exists in E as [f [I Eg]]. rewrite (Hg f (Hf f I)) in Eg. discriminate. }
  assert (Z : forall g, g = is_up i \/ g = guard_of i \/ g = is_new i \/ g = is_sh i \/ g = is_ex i ->
              cnt g (frames s) = 0).
  { intros g Hg. apply Hz. intros f Nf. unfold is_up, guard_of, is_new, is_sh, is_ex in Hg.
    assert (Ne : Nat.eqb i (frame_cell f) = false) by (apply Nat.eqb_neq; congruence).
    destruct Hg as [->|[->|[->|[->| ->]]]]; destruct f; cbn in *; rewrite ?Ne; reflexivity. }
  rewrite L1. fold i.
  destruct m.
  all: unfold inv; cbn [cells peers rcs ups frames vals modes];
    rewrite !app_length, L1, L2; split; [reflexivity|]; split; [reflexivity|].
  all: split; [|split; [|split; [|exact V]]].
  all: try (intros j Hj; specialize (H j Hj); cbn; fold i in H; lia).
  all: try (intros f [<-|I];
    [ split; [rewrite app_length; cbn; fold i; lia|];
      rewrite nth_error_app2 by (fold i; lia); replace (i - List.length (modes s)) with 0 by (fold i; lia); reflexivity
    | destruct (F f I) as [B W]; split; [rewrite app_length; cbn; lia|];
      destruct f; try exact W; rewrite nth_error_app1 by exact B; exact W ]).
  all: intros j mj Mj; destruct (Nat.eq_dec j i) as [->|Nj];
    [ rewrite !nth_error_app2 in * by (fold i; lia);
      rewrite ?L1, ?L2 in *; replace (i - List.length (modes s)) with 0 in * by (fold i; lia);
      fold i in Mj |- *; rewrite ?Nat.sub_diag in *; inversion Mj; subst;
      eexists _, _; split; [reflexivity|]; split; [reflexivity|];
      unfold good_at; cbn [rcs ups frames];
      rewrite !cnt_cons; cbn [is_up guard_of is_new];
      unfold is_sh at 1, is_ex at 1; cbn [frame_cell frame_access]; rewrite Nat.eqb_refl; cbn [andb];
      destruct (Hn i (le_n _)) as (-> & -> & _);
      rewrite (Z (is_up i)), (Z (guard_of i)), (Z (is_new i)), (Z (is_sh i)), (Z (is_ex i)) by auto;
      cbn; repeat split; try lia; try congruence; auto; try (left; split; congruence); intros; try lia; try discriminate
    | assert (Lj : j < i) by
        (apply nth_len in Mj; rewrite app_length in Mj; cbn in Mj; fold i in Mj; lia);
      rewrite nth_error_app1 in Mj by exact Lj; destruct (G j mj Mj) as (c & p & C & P & Gj);
      exists c, p; rewrite !nth_error_app1 by (rewrite ?L1, ?L2; exact Lj);
      split; [exact C|]; split; [exact P|];
      unfold good_at in *; cbn [rcs ups frames];
      rewrite !cnt_cons; cbn [is_up guard_of is_new];
      unfold is_sh at 1, is_ex at 1; cbn [frame_cell frame_access];
      destruct (Nat.eqb_spec j i) as [E|_]; [congruence|]; cbn [andb]; exact Gj ].
Qed.

(** ** One instance *)

Definition sh (a : access) : nat := match a with Shared => 1 | Exclusive => 0 end.
Definition ex (a : access) : nat := match a with Shared => 0 | Exclusive => 1 end.

Ltac ar :=
  repeat match goal with
  | H : _ /\ _ |- _ => destruct H
  | |- _ /\ _ => split
  | |- _ -> _ => intro
  | H : ?a = ?a -> _ |- _ => specialize (H eq_refl)
  | H : ?a = ?b -> _, E : ?a = ?b |- _ => specialize (H E)
  | H : 0 < ?a -> _, E : 0 < ?a |- _ => specialize (H E)
  end; subst; auto; try congruence; try lia.

Lemma good_alive m i c p R U u g n ns nx :
  good m i c p R U u g n ns nx -> 0 < R + u + n + g ->
  exists st b h, c = Some (Cell (S st) b h).
Proof.
  intros G L. destruct c as [[st b h]|].
  - destruct G as ((E & P & _) & _). destruct st; [lia|]. eauto.
  - destruct G as ((E & P) & _ & _ & _ & _ & _ & X & _). lia.
Qed.

Lemma good_clone m i st b h p R U u g n ns nx :
  good m i (Some (Cell st b h)) p R U u g n ns nx -> 0 < R ->
  good m i (Some (Cell (S st) b h)) p (S R) U u g n ns nx.
Proof.
  unfold good. intros ((E & P & Fl & Eh) & Pp & A1 & A2 & A3 & A4 & A5 & A6) L.
  split; [ar|]. split; [destruct p as [o|]; [split; [apply Pp|destruct m; try congruence; apply Pp]|destruct m; try congruence; apply Pp]|].
  ar.
Qed.

Lemma flag_take a b b' ns nx :
  flag_ok b ns nx -> try_borrow a b = Some b' -> flag_ok b' (sh a + ns) (ex a + nx).
Proof.
  destruct a, b; cbn; intros F E; inversion E; subst; cbn; lia.
Qed.

Lemma flag_release a b ns nx :
  flag_ok b (sh a + ns) (ex a + nx) -> flag_ok (release a b) ns nx.
Proof. destruct a, b as [|[|]|]; cbn; lia. Qed.

Ltac peerpart p m Pp :=
  destruct p as [o|]; [split; [apply Pp|destruct m; try congruence; apply Pp]
                      |destruct m; try congruence; apply Pp].

Lemma good_guard m i st b b' h p R U u g n ns nx a :
  good m i (Some (Cell st b h)) p R U u g n ns nx -> 0 < R -> try_borrow a b = Some b' ->
  good m i (Some (Cell st b' h)) p R U u (S g) n (sh a + ns) (ex a + nx).
Proof.
  unfold good. intros ((E & P & Fl & Eh) & Pp & A1 & A2 & A3 & A4 & A5 & A6) L T.
  pose proof (flag_take _ _ _ _ _ Fl T).
  split; [ar|]. split; [peerpart p m Pp|]. destruct a; cbn [sh ex]; ar.
Qed.

Lemma good_guard_end m i st b h p R U u g n ns nx a :
  good m i (Some (Cell st b h)) p R U u (S g) n (sh a + ns) (ex a + nx) ->
  good m i (Some (Cell st (release a b) h)) p R U u g n ns nx.
Proof.
  unfold good. intros ((E & P & Fl & Eh) & Pp & A1 & A2 & A3 & A4 & A5 & A6).
  pose proof (flag_release _ _ _ _ Fl).
  split; [ar|]. split; [peerpart p m Pp|]. destruct a; cbn [sh ex] in *; ar.
Qed.

Lemma good_upcall m i st b b' h p R U u g n ns nx a :
  good m i (Some (Cell st b h)) p R U u g n ns nx -> try_borrow a b = Some b' ->
  good m i (Some (Cell (S st) b' h)) p R U (S u) g n (sh a + ns) (ex a + nx).
Proof.
  unfold good. intros ((E & P & Fl & Eh) & Pp & A1 & A2 & A3 & A4 & A5 & A6) T.
  pose proof (flag_take _ _ _ _ _ Fl T).
  split; [ar|]. split; [peerpart p m Pp|]. destruct a; cbn [sh ex]; ar.
Qed.

(** The instance after one strong reference, held by a handle or an upcall, is gone. *)
Definition after (m : mode) (i st : nat) (b : flag) (h : cpp_holder) (p : peer) : option cell * peer :=
  match st with
  | S _ => (Some (Cell st b h), p)
  | 0 => (None, match h with HOwned _ => PFreed | _ => p end)
  end.

Lemma good_after m i st b h p R U u g n ns nx R' u' :
  good m i (Some (Cell (S st) b h)) p R U u g n ns nx ->
  R' + u' + 1 = R + u -> R' <= R -> (0 < g -> 0 < R') ->
  forall b' ns' nx', flag_ok b' ns' nx' -> ns' + nx' = u' + g + n ->
  good m i (fst (after m i st b' h p)) (snd (after m i st b' h p)) R' U u' g n ns' nx'.
Proof.
  unfold good. intros ((E & P & Fl & Eh) & Pp & A1 & A2 & A3 & A4 & A5 & A6) Es Lr Lg b' ns' nx' Fl' En.
  destruct st as [|st]; cbn [after fst snd].
  - assert (n = 0) by lia. assert (strong_of p = 0) by lia. assert (R' + u' = 0) by lia. subst n h.
    assert (g = 0) by (destruct g; [reflexivity|]; lia).
    unfold home. destruct m.
    + split; [ar|]. split; [destruct p; exact Pp|]. ar.
    + split; [cbn; ar|]. split; [reflexivity|]. ar.
    + split; [cbn; ar|]. split; [reflexivity|]. ar.
  - split; [ar|]. split; [peerpart p m Pp|]. ar.
Qed.

Lemma good_relinquish m i st b h R U u g n ns nx :
  good m i (Some (Cell (S st) b h)) (PLive (Some (RStrong i))) R U u g n ns nx ->
  m = CppOwned \/ 0 < st ->
  good m i (fst (after m i st b h (PLive (Some (RWeak i))))) (PLive (Some (RWeak i))) R U u g n ns nx.
Proof.
  unfold good. intros ((E & P & Fl & Eh) & Pp & A1 & A2 & A3 & A4 & A5 & A6) D.
  cbn [strong_of] in E. destruct st as [|st]; cbn [after fst].
  - destruct D as [-> |D]; [|lia]. split; [cbn; ar|]. split; [|ar]. split; [auto|apply Pp].
  - split; [cbn; ar|]. split; [|ar]. split; [auto|]. destruct m; try congruence. apply Pp.
Qed.

Lemma good_peer_gone i c p R U u g n ns nx :
  good CppOwned i c p R (S U) u g n ns nx ->
  p = PLive (Some (RStrong i)) \/ p = PLive (Some (RWeak i)).
Proof.
  unfold good. intros (_ & Pp & _). destruct p as [o|]; [|lia]. destruct Pp as [[[-> _]| ->] _]; auto.
Qed.

Lemma good_drop_up_weak i c R U u g n ns nx :
  good CppOwned i c (PLive (Some (RWeak i))) R (S U) u g n ns nx ->
  good CppOwned i c PFreed R U u g n ns nx.
Proof.
  unfold good. intros (C & Pp & A1 & A2 & A3 & A4 & A5 & A6).
  split; [destruct c as [[st b h]|]; exact C|]. split; [lia|]. ar.
Qed.

Lemma good_drop_up_strong i st b h R U u g n ns nx :
  good CppOwned i (Some (Cell (S st) b h)) (PLive (Some (RStrong i))) R (S U) u g n ns nx ->
  good CppOwned i (match st with 0 => None | _ => Some (Cell st b h) end) PFreed R U u g n ns nx.
Proof.
  unfold good. intros ((E & P & Fl & Eh) & Pp & A1 & A2 & A3 & A4 & A5 & A6). cbn [strong_of] in *.
  split; [destruct st; ar|]. split; [lia|]. ar.
Qed.

Lemma good_new_end m i st b h p U R u g ns nx :
  m <> CppOwned ->
  good m i (Some (Cell st b h)) p R U u g 1 ns (S nx) ->
  good m i (Some (Cell st (release Exclusive b) (HOwned i))) p (S R) U u g 0 ns nx.
Proof.
  unfold good. intros Nm ((E & P & Fl & Eh) & Pp & A1 & A2 & A3 & A4 & A5 & A6).
  pose proof (flag_release Exclusive b ns nx Fl).
  split; [destruct m; cbn [home]; ar|]. split; [|ar].
  destruct p as [o|]; [split; [apply Pp|destruct m; congruence]|destruct m; try congruence; discriminate Pp].
Qed.

Lemma good_new_end_cpp i st b h p R U u g ns nx :
  good CppOwned i (Some (Cell (S st) b h)) p R U u g 1 ns (S nx) ->
  good CppOwned i (match st with 0 => None | _ => Some (Cell st (release Exclusive b) (HUnowned i)) end)
    p R (S U) u g 0 ns nx.
Proof.
  unfold good. intros ((E & P & Fl & Eh) & Pp & A1 & A2 & A3 & A4 & A5 & A6).
  pose proof (flag_release Exclusive b ns nx Fl).
  split; [destruct st; cbn [home]; ar|]. split; [|ar].
  destruct p as [o|]; [split; [apply Pp|lia]|lia].
Qed.

(** ** Steps *)

Ltac st := cbn [cells peers rcs ups frames vals modes
                set_cell set_peer set_rcs set_ups set_frames set_vals].
Ltac stin H := cbn [cells peers rcs ups frames vals modes
                set_cell set_peer set_rcs set_ups set_frames set_vals] in H.

Lemma cnt_other f j : j <> frame_cell f ->
  is_up j f = false /\ guard_of j f = false /\ is_new j f = false /\ is_sh j f = false /\ is_ex j f = false.
Proof.
  intro N. assert (E : Nat.eqb j (frame_cell f) = false) by now apply Nat.eqb_neq.
  unfold is_sh, is_ex. rewrite E. destruct f; cbn in *; rewrite ?E; repeat split; reflexivity.
Qed.

Lemma counts_push s f j l :
  frames s = l -> j <> frame_cell f -> counts_same s (set_frames (f :: l) s) j.
Proof.
  intros <- N. destruct (cnt_other f j N) as (E1 & E2 & E3 & E4 & E5).
  unfold counts_same. st. rewrite !cnt_cons, E1, E2, E3, E4, E5. repeat split.
Qed.

Lemma counts_pop s k f j :
  nth_error (frames s) k = Some f -> j <> frame_cell f ->
  counts_same s (set_frames (remove_nth k (frames s)) s) j.
Proof.
  intros K N. destruct (cnt_other f j N) as (E1 & E2 & E3 & E4 & E5).
  unfold counts_same. st.
  rewrite (cnt_remove (is_up j) _ _ _ K), (cnt_remove (guard_of j) _ _ _ K),
    (cnt_remove (is_new j) _ _ _ K), (cnt_remove (is_sh j) _ _ _ K), (cnt_remove (is_ex j) _ _ _ K).
  rewrite E1, E2, E3, E4, E5. repeat split.
Qed.

Lemma sh_frame i f : frame_cell f = i ->
  (if is_sh i f then 1 else 0) = sh (frame_access f) /\ (if is_ex i f then 1 else 0) = ex (frame_access f).
Proof.
  intros <-. unfold is_sh, is_ex. rewrite Nat.eqb_refl. destruct (frame_access f); split; reflexivity.
Qed.

Lemma existsb_lt s i : inv s ->
  existsb (Nat.eqb i) (rcs s) = true \/ existsb (Nat.eqb i) (ups s) = true -> i < List.length (modes s).
Proof.
  intros (_ & _ & _ & _ & H & _) [E|E]; apply existsb_exists in E as [x [I E]];
    apply Nat.eqb_eq in E as <-; apply H; auto.
Qed.

(** Self-owned peers which hold their object stay. *)
Definition kept (s s' : state) : Prop :=
  forall j, nth_error (modes s) j = Some SelfOwned ->
  nth_error (peers s) j = Some (PLive (Some (RStrong j))) ->
  nth_error (peers s') j = Some (PLive (Some (RStrong j))).

Lemma kept_same s s' : peers s' = peers s -> kept s s'.
Proof. intros E j _ P. now rewrite E. Qed.

Lemma kept_upd s s' i q :
  i < List.length (peers s) -> peers s' = upd (peers s) i q ->
  (nth_error (modes s) i = Some SelfOwned -> nth_error (peers s) i = Some (PLive (Some (RStrong i))) ->
   q = PLive (Some (RStrong i))) ->
  kept s s'.
Proof.
  intros L E H j M P. rewrite E. destruct (Nat.eq_dec j i) as [->|N].
  - rewrite upd_same by exact L. now rewrite (H M P).
  - rewrite upd_other; auto.
Qed.

Lemma some_eq {A} (x y : A) : Some x = Some y -> x = y.
Proof. now intros [= E]. Qed.

Ltac parts H := destruct H as (L1 & L2 & G & F & Hh & V).

Lemma ok_clone s i :
  inv s -> existsb (Nat.eqb i) (rcs s) = true ->
  exists s', bind (clone_rc i s) (fun s => Next (set_rcs (i :: rcs s) s)) = Next s' /\ inv s' /\ kept s s'.
Proof.
  intros I E. assert (Li := existsb_lt s i I (or_introl E)).
  destruct (inv_index s i I Li) as (m & c & p & M & C & P & Gd).
  apply occ_in in E. destruct (good_alive _ _ _ _ _ _ _ _ _ _ _ Gd) as (st & b & h & ->); [lia|].
  unfold clone_rc, the_cell. rewrite C. cbn [bind c_strong c_flag c_obj]. eexists. split; [reflexivity|]. split; [|now apply kept_same].
  apply (inv_at s _ i m (Some (Cell (S (S st)) b h)) p I M); st; try reflexivity.
  - now rewrite upd_id.
  - intros j N. repeat split. st. rewrite occ_cons. destruct (Nat.eqb_spec j i); [congruence|reflexivity].
  - unfold good_at. st. rewrite occ_cons, Nat.eqb_refl. cbn [plus]. now apply good_clone.
  - apply I.
  - parts I. intros j [[<-|Ij]|Ij]; auto.
  - apply I.
Qed.

(** The state after a strong reference of cell [i] is dropped. *)
Definition gone (i : nat) (c : option cell) (p : peer) (s : state) : state :=
  set_peer i p (set_cell i c s).

Lemma drop_after s m i st b h p R U u g n ns nx :
  nth_error (cells s) i = Some (Some (Cell (S st) b h)) ->
  nth_error (peers s) i = Some p ->
  good m i (Some (Cell (S st) b h)) p R U u g n ns nx ->
  0 < R + u + n ->
  drop drop_fuel (inl i) s =
  Next (gone i (fst (after m i st b h p)) (snd (after m i st b h p)) s).
Proof.
  intros C P G L. rewrite (drop_strong_ok drop_fuel s m i st b h p); auto.
  - f_equal. unfold gone, after. destruct st as [|st]; cbn [fst snd].
    + assert (Eh : h = HEmpty \/ h = home m i)
        by (destruct G as ((_ & _ & _ & ->) & _); destruct n; auto).
      destruct Eh as [->| ->]; [|destruct m]; cbn [home];
        unfold set_peer, set_cell; st; rewrite ?(upd_id (peers s) i p P); reflexivity.
    + unfold set_peer, set_cell; st. now rewrite (upd_id (peers s) i p P).
  - unfold drop_fuel. lia.
  - destruct G as ((_ & _ & _ & ->) & _). destruct n; auto.
  - intros Nm Eh Z. subst st. destruct G as ((E & _ & _ & _) & Pp & _).
    assert (strong_of p = 0) by lia.
    destruct p as [o|]; [eauto|]. destruct m; congruence.
Qed.

Lemma ok_drop_rc s i :
  inv s -> existsb (Nat.eqb i) (rcs s) = true ->
  negb (existsb (guard_of i) (frames s)) || existsb (Nat.eqb i) (remove1 i (rcs s)) = true ->
  exists s', drop drop_fuel (inl i) (set_rcs (remove1 i (rcs s)) s) = Next s' /\ inv s' /\ kept s s'.
Proof.
  intros I E B. assert (Li := existsb_lt s i I (or_introl E)).
  destruct (inv_index s i I Li) as (m & c & p & M & C & P & Gd).
  pose proof (occ_remove1 (rcs s) i i E) as Ei. rewrite Nat.eqb_refl in Ei.
  destruct (good_alive _ _ _ _ _ _ _ _ _ _ _ Gd) as (st & b & h & ->); [lia|].
  unfold good_at in Gd.
  rewrite (drop_after (set_rcs (remove1 i (rcs s)) s) m i st b h p _ _ _ _ _ _ _ C P Gd) by lia.
  eexists. split; [reflexivity|]. unfold gone. split.
  2: { apply (kept_upd s _ i (snd (after m i st b h p))); [destruct I as (_ & L2 & _); lia|reflexivity|].
    intros _ P'. rewrite P in P'. apply some_eq in P' as ->. destruct Gd as ((X & _) & _). cbn [strong_of] in X.
    destruct st; [lia|reflexivity]. }
  apply (inv_at s _ i m (fst (after m i st b h p)) (snd (after m i st b h p)) I M); st; try reflexivity.
  - intros j N. repeat split. st. pose proof (occ_remove1 (rcs s) i j E) as Ej.
    destruct (Nat.eqb_spec j i); [congruence|]. lia.
  - unfold good_at. st. eapply good_after; [exact Gd|lia|lia| | |].
    + intro Lg. apply orb_true_iff in B as [B|B].
      * apply negb_true_iff, cnt_zero in B. lia.
      * now apply occ_in in B.
    + destruct Gd as ((_ & _ & Fl & _) & _). exact Fl.
    + destruct Gd as (_ & _ & _ & _ & _ & _ & _ & X). exact X.
  - apply I.
  - parts I. intros j [Ij|Ij]; [apply in_remove1 in Ij|]; auto.
  - apply I.
Qed.

Lemma ok_drop_up s p :
  inv s -> existsb (Nat.eqb p) (ups s) = true ->
  exists s', drop drop_fuel (inr p) (set_ups (remove1 p (ups s)) s) = Next s' /\ inv s' /\ kept s s'.
Proof.
  intros I E. assert (Li := existsb_lt s p I (or_intror E)).
  destruct (inv_index s p I Li) as (m & c & q & M & C & P & Gd).
  pose proof (occ_remove1 (ups s) p p E) as Ei. rewrite Nat.eqb_refl in Ei.
  assert (m = CppOwned) as ->.
  { destruct Gd as (_ & _ & _ & X & _). destruct m; [reflexivity| |]; rewrite X in Ei; (discriminate || lia). }
  assert (Oth : forall j, j <> p -> occ (remove1 p (ups s)) j = occ (ups s) j).
  { intros j N. pose proof (occ_remove1 (ups s) p j E) as Ej.
    destruct (Nat.eqb_spec j p); [congruence|]. lia. }
  unfold good_at in Gd. rewrite Ei in Gd. cbn [plus] in Gd.
  destruct (good_peer_gone _ _ _ _ _ _ _ _ _ _ Gd) as [->| ->].
  - assert (exists st b h, c = Some (Cell (S st) b h)) as (st & b & h & ->).
    { destruct c as [[[|st] b h]|]; eauto.
      - destruct Gd as ((X & Y & _) & _). lia.
      - destruct Gd as ((X & _) & _). cbn in X. lia. }
    change drop_fuel with 4. rewrite (drop_peer _ _ p (Some (RStrong p))) by exact P.
    rewrite (drop_strong_ok 3 _ CppOwned p st b h PFreed).
    + eexists. split; [reflexivity|].
      assert (Eh : h = HEmpty \/ h = HUnowned p)
        by (destruct Gd as ((_ & _ & _ & ->) & _); destruct (cnt (is_new p) _); auto).
      assert (Es : forall X : state,
        match st with
        | 0 => match h with HOwned _ => set_peer p PFreed (set_cell p None X) | _ => set_cell p None X end
        | S _ => set_cell p (Some (Cell st b h)) X end =
        set_cell p (match st with 0 => None | _ => Some (Cell st b h) end) X).
      { intro X. destruct st; [destruct Eh as [->| ->]|]; reflexivity. }
      rewrite Es. split.
      2: { apply (kept_upd s _ p PFreed); [destruct I as (_ & L2 & _); lia|reflexivity|congruence]. }
      apply (inv_at s _ p CppOwned (match st with 0 => None | _ => Some (Cell st b h) end) PFreed I M); st; try reflexivity.
      * intros j N. repeat split. st. auto.
      * unfold good_at. st. apply good_drop_up_strong. exact Gd.
      * apply I.
      * parts I. intros j [Ij|Ij]; [|apply in_remove1 in Ij]; auto.
      * apply I.
    + lia.
    + st. exact C.
    + st. apply upd_same. destruct I as (_ & L2 & _). lia.
    + destruct Gd as ((_ & _ & _ & ->) & _). destruct (cnt (is_new p) _); auto.
    + congruence.
  - change drop_fuel with 4. rewrite (drop_peer _ _ p (Some (RWeak p))) by exact P.
    eexists. split; [reflexivity|]. split.
    2: { apply (kept_upd s _ p PFreed); [destruct I as (_ & L2 & _); lia|reflexivity|congruence]. }
    apply (inv_at s _ p CppOwned c PFreed I M); st; try reflexivity.
    + now rewrite upd_id.
    + intros j N. repeat split. st. auto.
    + unfold good_at. st. apply good_drop_up_weak. exact Gd.
    + apply I.
    + parts I. intros j [Ij|Ij]; [|apply in_remove1 in Ij]; auto.
    + apply I.
Qed.

Lemma ok_guard s i a :
  inv s -> existsb (Nat.eqb i) (rcs s) = true ->
  match bind (borrow_cell i a s) (fun b => match b with None => Panics
              | Some s => Next (set_frames (FGuard i a :: frames s) s) end) with
  | Next s' => inv s' /\ kept s s' | Panics => True | Fault _ => False end.
Proof.
  intros I E. assert (Li := existsb_lt s i I (or_introl E)).
  destruct (inv_index s i I Li) as (m & c & p & M & C & P & Gd).
  apply occ_in in E. destruct (good_alive _ _ _ _ _ _ _ _ _ _ _ Gd) as (st & b & h & ->); [lia|].
  unfold borrow_cell, the_cell. rewrite C. cbn [bind c_strong c_flag c_obj].
  destruct (try_borrow a b) as [b'|] eqn:T; cbn [bind]; [|exact Logic.I]. split; [|now apply kept_same].
  apply (inv_at s _ i m (Some (Cell (S st) b' h)) p I M); st; try reflexivity.
  - now rewrite upd_id.
  - intros j N. exact (counts_push s (FGuard i a) j _ eq_refl N).
  - unfold good_at. st. rewrite !cnt_cons.
    destruct (sh_frame i (FGuard i a) eq_refl) as [-> ->]. cbn [is_up guard_of is_new frame_access].
    rewrite Nat.eqb_refl. cbn [plus]. now apply (good_guard m i (S st) b).
  - parts I. intros f [<-|If]; [split; [exact Li|exact Logic.I]|auto].
  - apply I.
  - apply I.
Qed.

Lemma live_obs s p o :
  inv s -> nth_error (peers s) p = Some (PLive o) -> o = Some (RStrong p) \/ o = Some (RWeak p).
Proof.
  intros I P. assert (Lp : p < List.length (modes s)).
  { destruct I as (_ & L2 & _). rewrite <- L2. exact (nth_len _ _ _ P). }
  destruct (inv_index s p I Lp) as (m & c & q & M & C & P' & Gd). rewrite P in P'.
  inversion P'; subst. destruct Gd as (_ & [[[-> _]| ->] _] & _); auto.
Qed.

Lemma ok_upcall s p a o :
  inv s -> nth_error (peers s) p = Some (PLive o) ->
  match upcall p a s with Next s' => inv s' /\ kept s s' | Panics => True | Fault _ => False end.
Proof.
  intros I P. assert (Lp : p < List.length (modes s)).
  { destruct I as (_ & L2 & _). rewrite <- L2. exact (nth_len _ _ _ P). }
  destruct (inv_index s p I Lp) as (m & c & q & M & C & P' & Gd).
  rewrite P in P'. inversion P'; subst q. clear P'.
  pose proof (live_obs s p o I P) as Ho.
  assert (W : forall st b h, c = Some (Cell st b h) ->
    match bind (bind (clone_rc p s) (fun s => Next (Some (p, s)))) (fun r => match r with
      | None => Panics
      | Some (i, s) => bind (borrow_cell i a s) (fun b => match b with
          | None => Panics | Some s => Next (set_frames (FUpcall p i a :: frames s) s) end)
      end) with Next s' => inv s' /\ kept s s' | Panics => True | Fault _ => False end).
  { intros st b h ->. unfold clone_rc, the_cell. rewrite C. cbn [bind c_strong c_flag c_obj].
    unfold borrow_cell, the_cell. st.
    rewrite upd_same by (destruct I as (L1 & _); lia). cbn [bind c_strong c_flag c_obj].
    destruct (try_borrow a b) as [b'|] eqn:T; cbn [bind]; [|exact Logic.I]. split; [|now apply kept_same].
    apply (inv_at s _ p m (Some (Cell (S st) b' h)) (PLive o) I M); st; try reflexivity.
    - now rewrite upd_upd.
    - now rewrite upd_id.
    - intros j N. exact (counts_push s (FUpcall p p a) j _ eq_refl N).
    - unfold good_at. st. rewrite !cnt_cons.
      destruct (sh_frame p (FUpcall p p a) eq_refl) as [-> ->]. cbn [is_up guard_of is_new frame_access].
      rewrite Nat.eqb_refl. cbn [plus]. now apply (good_upcall m p st b).
    - parts I. intros f [<-|If]; [split; [exact Lp|reflexivity]|auto].
    - apply I.
    - apply I. }
  unfold upcall, the_peer. rewrite P. cbn [bind]. destruct Ho as [->| ->]; cbn [holder_get].
  - destruct c as [[st b h]|].
    + eapply W; reflexivity.
    + destruct Gd as ((X & _) & _). cbn in X. lia.
  - rewrite C. destruct c as [[st b h]|]; [eapply W; reflexivity|exact Logic.I].
Qed.

Lemma ok_end_guard s k i a :
  inv s -> nth_error (frames s) k = Some (FGuard i a) ->
  exists s', release_cell i a (set_frames (remove_nth k (frames s)) s) = Next s' /\ inv s' /\ kept s s'.
Proof.
  intros I K. assert (Fk : frame_ok (modes s) (FGuard i a)).
  { destruct I as (_ & _ & _ & F & _). apply F. exact (nth_error_In _ _ K). }
  destruct Fk as [Li _]. cbn in Li.
  destruct (inv_index s i I Li) as (m & c & p & M & C & P & Gd).
  unfold good_at in Gd.
  rewrite (cnt_remove (is_up i) _ _ _ K), (cnt_remove (guard_of i) _ _ _ K),
    (cnt_remove (is_new i) _ _ _ K), (cnt_remove (is_sh i) _ _ _ K), (cnt_remove (is_ex i) _ _ _ K) in Gd.
  destruct (sh_frame i (FGuard i a) eq_refl) as [E1 E2]. rewrite E1, E2 in Gd.
  cbn [is_up guard_of is_new frame_access] in Gd. rewrite Nat.eqb_refl in Gd. cbn [plus] in Gd.
  destruct (good_alive _ _ _ _ _ _ _ _ _ _ _ Gd) as (st & b & h & ->); [lia|].
  unfold release_cell, the_cell. st. rewrite C. cbn [bind c_strong c_flag c_obj].
  eexists. split; [reflexivity|]. split; [|now apply kept_same].
  apply (inv_at s _ i m (Some (Cell (S st) (release a b) h)) p I M); st; try reflexivity.
  - now rewrite upd_id.
  - intros j N. exact (counts_pop s k _ j K N).
  - unfold good_at. st. apply good_guard_end. exact Gd.
  - intros f If. apply in_remove_nth in If. now apply I.
  - apply I.
  - apply I.
Qed.

Lemma ok_end_upcall s k q i a :
  inv s -> nth_error (frames s) k = Some (FUpcall q i a) ->
  exists s', upcall_end i a (set_frames (remove_nth k (frames s)) s) = Next s' /\ inv s' /\ kept s s'.
Proof.
  intros I K. assert (Fk : frame_ok (modes s) (FUpcall q i a)).
  { destruct I as (_ & _ & _ & F & _). apply F. exact (nth_error_In _ _ K). }
  destruct Fk as [Li _]. cbn in Li.
  destruct (inv_index s i I Li) as (m & c & p & M & C & P & Gd).
  unfold good_at in Gd.
  rewrite (cnt_remove (is_up i) _ _ _ K), (cnt_remove (guard_of i) _ _ _ K),
    (cnt_remove (is_new i) _ _ _ K), (cnt_remove (is_sh i) _ _ _ K), (cnt_remove (is_ex i) _ _ _ K) in Gd.
  destruct (sh_frame i (FUpcall q i a) eq_refl) as [E1 E2]. rewrite E1, E2 in Gd.
  cbn [is_up guard_of is_new frame_access] in Gd. rewrite Nat.eqb_refl in Gd. cbn [plus] in Gd.
  destruct (good_alive _ _ _ _ _ _ _ _ _ _ _ Gd) as (st & b & h & ->); [lia|].
  unfold upcall_end, release_cell, the_cell. st. rewrite C. cbn [bind c_strong c_flag c_obj].
  set (s1 := set_cell i _ _).
  assert (C1 : nth_error (cells s1) i = Some (Some (Cell (S st) (release a b) h)))
    by (unfold s1; st; apply upd_same; destruct I as (L1 & _); lia).
  assert (G1 := Gd).
  destruct Gd as ((X1 & X2 & X3 & X4) & Xr).
  assert (X3' := flag_release a b _ _ X3).
  rewrite (drop_strong_ok drop_fuel s1 m i st (release a b) h p); [|unfold drop_fuel; lia|exact C1|exact P| |].
  - eexists. split; [reflexivity|].
    assert (Es : match st with
      | 0 => match h with HOwned _ => set_peer i PFreed (set_cell i None s1) | _ => set_cell i None s1 end
      | S _ => set_cell i (Some (Cell st (release a b) h)) s1 end =
      gone i (fst (after m i st (release a b) h p)) (snd (after m i st (release a b) h p)) s1).
    { unfold gone, after. destruct st; [destruct h|]; cbn [fst snd]; unfold set_peer, set_cell; st;
        try reflexivity; unfold s1; st; rewrite (upd_id (peers s) i p P); reflexivity. }
    rewrite Es. unfold gone. split.
    2: { apply (kept_upd s _ i (snd (after m i st (release a b) h p))); [destruct I as (_ & L2 & _); lia|reflexivity|].
      intros _ P'. rewrite P in P'. apply some_eq in P' as ->. cbn [strong_of] in X1.
      destruct st; [lia|reflexivity]. }
    apply (inv_at s _ i m (fst (after m i st (release a b) h p)) (snd (after m i st (release a b) h p)) I M);
      unfold s1; st; try reflexivity.
    + now rewrite upd_upd.
    + intros j N. exact (counts_pop s k _ j K N).
    + unfold good_at. st. eapply good_after; [exact G1|lia|lia| |exact X3'|].
      * destruct Xr as (_ & _ & _ & _ & _ & Y & _). exact Y.
      * destruct Xr as (_ & _ & _ & _ & _ & _ & Y). destruct a; cbn [sh ex] in Y; lia.
    + intros f If. apply in_remove_nth in If. now apply I.
    + apply I.
    + apply I.
  - rewrite X4. destruct (cnt (is_new i) _); auto.
  - intros Nm Eh Z. subst st. assert (strong_of p = 0) by lia.
    destruct Xr as (Pp & _). destruct p as [o|]; [eauto|]. destruct m; congruence.
Qed.

Lemma ok_new_end s k m i :
  inv s -> nth_error (frames s) k = Some (FNew m i) ->
  exists s', new_end m i (set_frames (remove_nth k (frames s)) s) = Next s' /\ inv s' /\ kept s s'.
Proof.
  intros I K. assert (Fk : frame_ok (modes s) (FNew m i)).
  { destruct I as (_ & _ & _ & F & _). apply F. exact (nth_error_In _ _ K). }
  destruct Fk as [Li M]. cbn in Li.
  destruct (inv_index s i I Li) as (m' & c & p & M' & C & P & Gd).
  rewrite M in M'. inversion M'; subst m'. clear M'.
  unfold good_at in Gd.
  rewrite (cnt_remove (is_up i) _ _ _ K), (cnt_remove (guard_of i) _ _ _ K),
    (cnt_remove (is_new i) _ _ _ K), (cnt_remove (is_sh i) _ _ _ K), (cnt_remove (is_ex i) _ _ _ K) in Gd.
  destruct (sh_frame i (FNew m i) eq_refl) as [E1 E2]. rewrite E1, E2 in Gd.
  cbn [is_up guard_of is_new frame_access sh ex] in Gd. rewrite Nat.eqb_refl in Gd. cbn [plus] in Gd.
  destruct (good_alive _ _ _ _ _ _ _ _ _ _ _ Gd) as (st & b & h & ->); [lia|].
  set (s0 := set_frames (remove_nth k (frames s)) s).
  assert (N0 : cnt (is_new i) (remove_nth k (frames s)) = 0).
  { destruct Gd as (_ & _ & _ & _ & X & _). lia. }
  rewrite N0 in Gd.
  assert (h = HEmpty) as ->. { destruct Gd as ((_ & _ & _ & X) & _). exact X. }
  assert (Len : List.length (cells s) = List.length (modes s)) by apply I.
  assert (SR : forall h', set_holder i h' s0 = Next (set_cell i (Some (Cell (S st) b h')) s0)).
  { intro h'. unfold set_holder, the_cell. change (cells s0) with (cells s). rewrite C. reflexivity. }
  assert (RL : forall h', release_cell i Exclusive (set_cell i (Some (Cell (S st) b h')) s0) =
     Next (set_cell i (Some (Cell (S st) (release Exclusive b) h')) s0)).
  { intro h'. unfold release_cell, the_cell. change (cells (set_cell i (Some (Cell (S st) b h')) s0))
      with (upd (cells s) i (Some (Cell (S st) b h'))). rewrite upd_same by lia.
    cbn [bind c_strong c_flag c_obj]. unfold set_cell. st. rewrite upd_upd. reflexivity. }
  assert (Dec : m = CppOwned \/ m <> CppOwned) by (destruct m; auto; right; discriminate).
  destruct Dec as [-> |Nm].
  - unfold new_end. rewrite SR. cbn [bind]. rewrite RL. cbn [bind].
    set (s1 := set_cell i (Some (Cell (S st) (release Exclusive b) (HUnowned i))) s0).
    assert (C1 : nth_error (cells s1) i = Some (Some (Cell (S st) (release Exclusive b) (HUnowned i))))
      by (unfold s1, s0; st; apply upd_same; lia).
    rewrite (drop_strong_ok drop_fuel s1 CppOwned i st (release Exclusive b) (HUnowned i) p);
      [|unfold drop_fuel; lia|exact C1|exact P|right; reflexivity|congruence].
    cbn [bind]. eexists. split; [reflexivity|].
    assert (Es : match st with
        | 0 => set_cell i None s1 | S _ => set_cell i (Some (Cell st (release Exclusive b) (HUnowned i))) s1 end =
      set_cell i (match st with 0 => None | _ => Some (Cell st (release Exclusive b) (HUnowned i)) end) s1)
      by (destruct st; reflexivity).
    rewrite Es. split; [|now apply kept_same].
    apply (inv_at s _ i CppOwned (match st with 0 => None | _ => Some (Cell st (release Exclusive b) (HUnowned i)) end) p I M);
      unfold s1, s0; st; try reflexivity.
    + now rewrite upd_upd.
    + now rewrite upd_id.
    + intros j N. destruct (counts_pop s k _ j K N) as (A1 & A2 & A3 & A4 & A5 & A6 & A7).
      repeat split; st; auto. rewrite occ_cons. destruct (Nat.eqb_spec j i); [contradiction|reflexivity].
    + unfold good_at. st. rewrite occ_cons, Nat.eqb_refl, N0. cbn [plus].
      eapply good_new_end_cpp. exact Gd.
    + intros f If. apply in_remove_nth in If. now apply I.
    + parts I. intros j [Ij|[<-|Ij]]; auto.
    + apply I.
  - assert (En : new_end m i s0 = Next (set_rcs (i :: rcs s)
        (set_cell i (Some (Cell (S st) (release Exclusive b) (HOwned i))) s0))).
    { destruct m; [congruence| |]; unfold new_end; rewrite SR; cbn [bind]; rewrite RL; reflexivity. }
    rewrite En. eexists. split; [reflexivity|]. split; [|now apply kept_same].
    apply (inv_at s _ i m (Some (Cell (S st) (release Exclusive b) (HOwned i))) p I M);
      unfold s0; st; try reflexivity.
    + now rewrite upd_id.
    + intros j N. destruct (counts_pop s k _ j K N) as (A1 & A2 & A3 & A4 & A5 & A6 & A7).
      repeat split; st; auto. rewrite occ_cons. destruct (Nat.eqb_spec j i); [contradiction|reflexivity].
    + unfold good_at. st. rewrite occ_cons, Nat.eqb_refl, N0. cbn [plus].
      eapply good_new_end; [exact Nm|exact Gd].
    + intros f If. apply in_remove_nth in If. now apply I.
    + parts I. intros j [[<-|Ij]|Ij]; auto.
    + apply I.
Qed.

Lemma ok_remove s p o :
  inv s -> nth_error (peers s) p = Some (PLive o) ->
  match really_remove_ownership p s with
  | Next s' => inv s' /\ nth_error (peers s') p = Some (PLive (Some (RWeak p))) /\
      forall j, j <> p -> nth_error (peers s') j = nth_error (peers s) j
  | Panics => False
  | Fault f => f = UseAfterFree /\ o = Some (RStrong p) /\ nth_error (modes s) p = Some SelfOwned /\
      exists b, nth_error (cells s) p = Some (Some (Cell 1 b (HOwned p)))
  end.
Proof.
  intros I P. assert (Lp : p < List.length (modes s)).
  { destruct I as (_ & L2 & _). rewrite <- L2. exact (nth_len _ _ _ P). }
  assert (L1 : List.length (cells s) = List.length (modes s)) by apply I.
  assert (L2 : List.length (peers s) = List.length (modes s)) by apply I.
  destruct (inv_index s p I Lp) as (m & c & q & M & C & P' & Gd).
  rewrite P in P'. inversion P'; subst q. clear P'.
  unfold really_remove_ownership, the_peer. rewrite P. cbn [bind].
  destruct (live_obs s p o I P) as [-> | ->]; cbn [holder_relinquish].
  - destruct c as [[[|st] b h]|].
    + destruct Gd as ((_ & X & _) & _). lia.
    + assert (Eh : h = HEmpty \/ h = home m p)
        by (destruct Gd as ((_ & _ & _ & ->) & _); destruct (cnt (is_new p) _); auto).
      assert (Nr : m <> RustOwned).
      { destruct Gd as (_ & [[[_ X]|X] _] & _); [exact X|discriminate]. }
      set (s0 := set_peer p (PLive None) s).
      rewrite (drop_strong_ok drop_fuel s0 m p st b h (PLive None));
        [|unfold drop_fuel; lia|exact C|unfold s0; st; apply upd_same; lia|exact Eh|intros _ _ _; exists None; split; reflexivity].
      cbn [bind].
      assert (Dec : m = CppOwned \/ 0 < st \/ (h = HOwned p /\ st = 0 /\ m = SelfOwned) \/ (h = HEmpty /\ st = 0)).
      { destruct st; [|right; left; lia]. destruct Eh as [->| ->]; [auto|].
        destruct m; [auto|congruence|]. right. right. left. auto. }
      assert (OK : m = CppOwned \/ 0 < st ->
        match
          match nth_error (peers match st with 0 => match h with HOwned _ => set_peer p PFreed (set_cell p None s0) | _ => set_cell p None s0 end
            | S _ => set_cell p (Some (Cell st b h)) s0 end) p with
          | Some (PLive o0) => Next o0 | _ => Fault UseAfterFree end
        with
        | Next _ => (fun s' => inv s' /\ nth_error (peers s') p = Some (PLive (Some (RWeak p))) /\
            forall j, j <> p -> nth_error (peers s') j = nth_error (peers s) j)
           (set_peer p (PLive (Some (RWeak p))) match st with 0 => match h with HOwned _ => set_peer p PFreed (set_cell p None s0) | _ => set_cell p None s0 end
            | S _ => set_cell p (Some (Cell st b h)) s0 end)
        | Panics => False | Fault _ => False end).
      { intro D.
        assert (Es : match st with 0 => match h with HOwned _ => set_peer p PFreed (set_cell p None s0) | _ => set_cell p None s0 end
            | S _ => set_cell p (Some (Cell st b h)) s0 end =
          set_cell p (fst (after m p st b h (PLive (Some (RWeak p))))) s0).
        { unfold after. destruct st; [|reflexivity]. destruct D as [->|D]; [|lia].
          destruct Eh as [->| ->]; reflexivity. }
        rewrite Es. unfold s0 at 1. st. rewrite upd_same by lia. split.
        2: { unfold s0; st; rewrite upd_upd. split; [apply upd_same; lia|intros j N; now apply upd_other]. }
        apply (inv_at s _ p m (fst (after m p st b h (PLive (Some (RWeak p))))) (PLive (Some (RWeak p))) I M);
          unfold s0; st; try reflexivity.
        - now rewrite upd_upd.
        - intros j N. repeat split.
        - unfold good_at. st. apply good_relinquish; [exact Gd|exact D].
        - apply I.
        - apply I.
        - apply I. }
      destruct Dec as [D|[D|[D|D]]].
      * specialize (OK (or_introl D)). destruct (nth_error _ p) as [[]|] in OK |- *; cbn [bind]; auto; contradiction.
      * specialize (OK (or_intror D)). destruct (nth_error _ p) as [[]|] in OK |- *; cbn [bind]; auto; contradiction.
      * destruct D as (-> & -> & ->). unfold s0. st. rewrite upd_upd, upd_same by lia. cbn [bind].
        repeat split; auto. eauto.
      * destruct D as (-> & ->). exfalso.
        destruct Gd as ((X1 & _ & _ & X2) & _). cbn [strong_of] in X1.
        destruct (cnt (is_new p) (frames s)) eqn:En; [|lia]. destruct m; discriminate X2.
    + destruct Gd as ((X & _) & _). cbn in X. lia.
  - cbn [bind]. st. rewrite upd_same by lia. cbn [bind]. split.
    2: { st; rewrite upd_upd. split; [apply upd_same; lia|intros j N; now apply upd_other]. }
    apply (inv_at s _ p m c (PLive (Some (RWeak p))) I M); st; try reflexivity.
    + now rewrite upd_id.
    + now rewrite upd_upd.
    + intros j N. repeat split.
    + exact Gd.
    + apply I.
    + apply I.
    + apply I.
Qed.

(** A frame keeps its cell alive, and the object in it points to its peer. *)
Lemma frame_alive s k f :
  inv s -> nth_error (frames s) k = Some f ->
  exists m st b h p, nth_error (modes s) (frame_cell f) = Some m /\
    nth_error (cells s) (frame_cell f) = Some (Some (Cell (S st) b h)) /\
    nth_error (peers s) (frame_cell f) = Some p /\
    good_at s m (frame_cell f) (Some (Cell (S st) b h)) p /\
    strong_of p <= st /\
    h = (match cnt (is_new (frame_cell f)) (frames s) with 0 => home m (frame_cell f) | _ => HEmpty end).
Proof.
  intros I K. set (i := frame_cell f) in *.
  assert (Li : i < List.length (modes s)).
  { destruct I as (_ & _ & _ & F & _). apply F. exact (nth_error_In _ _ K). }
  destruct (inv_index s i I Li) as (m & c & p & M & C & P & Gd).
  pose proof (cnt_remove (is_up i) _ _ _ K) as N1.
  pose proof (cnt_remove (guard_of i) _ _ _ K) as N2.
  pose proof (cnt_remove (is_new i) _ _ _ K) as N3.
  assert (Any : 0 < cnt (is_up i) (frames s) + cnt (guard_of i) (frames s) + cnt (is_new i) (frames s)).
  { subst i. destruct f; cbn [is_up guard_of is_new frame_cell] in *; rewrite Nat.eqb_refl in *; lia. }
  assert (Any' : 0 < occ (rcs s) i + cnt (is_up i) (frames s) + cnt (is_new i) (frames s)).
  { destruct Gd as (_ & _ & _ & _ & _ & _ & X & _).
    destruct (cnt (guard_of i) (frames s)); [|specialize (X (Nat.lt_0_succ _))]; lia. }
  destruct (good_alive _ _ _ _ _ _ _ _ _ _ _ Gd) as (st & b & h & ->); [lia|].
  exists m, st, b, h, p. repeat (split; [assumption|]).
  destruct Gd as ((X & _ & _ & Y) & _). split; [lia|exact Y].
Qed.

(** The peer of [p] is being destroyed or has been, and code of the object is still
    running. *)
Definition stale (s : state) (i : nat) : Prop :=
  nth_error (modes s) i = Some CppOwned /\ nth_error (peers s) i = Some PFreed.

(** A self-owned object which nobody else refers to. *)
Definition alone (s : state) (p : nat) : Prop :=
  nth_error (modes s) p = Some SelfOwned /\ ~ In p (rcs s) /\
  forall f, In f (frames s) -> frame_cell f <> p.

Lemma ok_use s k f :
  inv s -> nth_error (frames s) k = Some f ->
  match bind (the_cell s (frame_cell f)) (fun c => bind (holder_peer (c_obj c) s) (fun _ => Next s)) with
  | Next s' => s' = s /\ exists o, nth_error (peers s) (frame_cell f) = Some (PLive o)
  | Panics => In (frame_cell f) (map frame_cell (filter (is_new (frame_cell f)) (frames s)))
  | Fault x => x = UseAfterFree /\ stale s (frame_cell f)
  end.
Proof.
  intros I K. destruct (frame_alive s k f I K) as (m & st & b & h & p & M & C & P & Gd & _ & Eh).
  set (i := frame_cell f) in *. unfold the_cell. rewrite C. cbn [bind c_obj].
  destruct (cnt (is_new i) (frames s)) eqn:En.
  - assert (Hp : holder_peer h s = bind (the_peer s i) (fun _ => Next i))
      by (rewrite Eh; destruct m; reflexivity).
    rewrite Hp. unfold the_peer. rewrite P. destruct p as [o|]; cbn [bind].
    + split; [reflexivity|eauto].
    + split; [reflexivity|]. split; [|exact P]. destruct Gd as (_ & X & _).
      destruct m; [exact M|discriminate X|discriminate X].
  - rewrite Eh. cbn [holder_peer bind].
    assert (Hx : existsb (is_new i) (frames s) = true)
      by (destruct (existsb (is_new i) (frames s)) eqn:Hx; [reflexivity|apply cnt_zero in Hx; lia]).
    apply existsb_exists in Hx as [g [Ig Eg]].
    apply in_map_iff. exists g. split; [|now apply filter_In].
    destruct g; cbn in Eg; try discriminate. apply Nat.eqb_eq in Eg. symmetry. exact Eg.
Qed.

Lemma ok_delete s k f :
  inv s -> nth_error (frames s) k = Some f ->
  match delete_self (frame_cell f) s with
  | Next s' => inv s' /\ nth_error (peers s') (frame_cell f) = Some (PLive (Some (RWeak (frame_cell f)))) /\
      forall j, j <> frame_cell f -> nth_error (peers s') j = nth_error (peers s) j
  | Panics => In (frame_cell f) (map frame_cell (filter (is_new (frame_cell f)) (frames s)))
  | Fault x => x = UseAfterFree /\ stale s (frame_cell f)
  end.
Proof.
  intros I K. pose proof (ok_use s k f I K) as U.
  destruct (frame_alive s k f I K) as (m & st & b & h & p & M & C & P & Gd & Ls & Eh).
  set (i := frame_cell f) in *. unfold delete_self. unfold the_cell in *. rewrite C in *. cbn [bind c_obj] in *.
  destruct (holder_peer h s) as [q| |x] eqn:Hp; cbn [bind] in *; [|exact U|exact U].
  destruct U as [_ [o Po]].
  assert (q = i) as ->.
  { destruct (cnt (is_new i) (frames s)); rewrite Eh in Hp; [destruct m|]; cbn in Hp;
      unfold the_peer in Hp; rewrite ?Po in Hp; cbn in Hp; congruence. }
  pose proof (ok_remove s i o I Po) as R. destruct (really_remove_ownership i s) as [s'| |x];
    [exact R|contradiction|].
  destruct R as (_ & -> & _ & b' & C'). rewrite C in C'. inversion C'; subst.
  rewrite P in Po. inversion Po; subst. cbn [strong_of] in Ls. lia.
Qed.

Definition fault_ok (s : state) (e : event) : Prop :=
  (exists k f, (e = EUse k \/ e = EDelete k) /\ nth_error (frames s) k = Some f /\ stale s (frame_cell f)) \/
  (exists p, e = ECppRemove p /\ alone s p).

(** The events which take the self-owned object [j] out of its own hands. *)
Definition removal (s : state) (e : event) (j : nat) : Prop :=
  (exists k f, e = EDelete k /\ nth_error (frames s) k = Some f /\ frame_cell f = j) \/ e = ECppRemove j.

Lemma step_ok s e r :
  inv s -> (forall k, e <> EReplace k) -> step s e = Some r ->
  match r with
  | Next s' => inv s' /\ (forall j, nth_error (modes s) j = Some SelfOwned ->
      nth_error (peers s) j = Some (PLive (Some (RStrong j))) -> ~ removal s e j ->
      nth_error (peers s') j = Some (PLive (Some (RStrong j))))
  | Panics => True
  | Fault x => x = UseAfterFree /\ fault_ok s e
  end.
Proof.
  intros I NR. destruct e as [m|k|i|i|p|i a|p a|k|k|k|p|p|k|k]; cbn [step].
  - intro Q; apply some_eq in Q as <-. split; [now apply inv_begin|].
    intros j M P _. unfold new_begin. destruct m; cbn [peers]; rewrite nth_error_app1 by exact (nth_len _ _ _ P); exact P.
  - destruct (nth_error (frames s) k) as [[m i| |]|] eqn:K; try discriminate. intro Q; apply some_eq in Q as <-.
    destruct (ok_new_end s k m i I K) as (s' & -> & H). destruct H; auto.
  - destruct (existsb (Nat.eqb i) (rcs s)) eqn:E; [|discriminate]. intro Q; apply some_eq in Q as <-.
    destruct (ok_clone s i I E) as (s' & -> & H). destruct H; auto.
  - destruct (existsb (Nat.eqb i) (rcs s)) eqn:E; [|discriminate]. cbn [andb].
    destruct (negb _ || _) eqn:B; [|discriminate]. intro Q; apply some_eq in Q as <-.
    destruct (ok_drop_rc s i I E B) as (s' & -> & H). destruct H; auto.
  - destruct (existsb (Nat.eqb p) (ups s)) eqn:E; [|discriminate]. intro Q; apply some_eq in Q as <-.
    destruct (ok_drop_up s p I E) as (s' & -> & H). destruct H; auto.
  - destruct (existsb (Nat.eqb i) (rcs s)) eqn:E; [|discriminate]. intro Q; apply some_eq in Q as <-.
    pose proof (ok_guard s i a I E) as H. destruct (bind _ _) as [s'| |]; auto; [|contradiction]. destruct H; auto.
  - destruct (nth_error (peers s) p) as [[o|]|] eqn:P; try discriminate. intro Q; apply some_eq in Q as <-.
    pose proof (ok_upcall s p a o I P) as H. destruct (upcall p a s); auto; [|contradiction]. destruct H; auto.
  - destruct (nth_error (frames s) k) as [[m i|i a|q i a]|] eqn:K; try discriminate; intro Q; apply some_eq in Q as <-.
    + destruct (ok_end_guard s k i a I K) as (s' & -> & H). destruct H; auto.
    + destruct (ok_end_upcall s k q i a I K) as (s' & -> & H). destruct H; auto.
  - destruct (nth_error (frames s) k) as [f|] eqn:K; [|discriminate]. intro Q; apply some_eq in Q as <-.
    pose proof (ok_use s k f I K) as H. destruct (bind _ _) as [s'| |x].
    + destruct H as [-> _]. auto.
    + exact Logic.I.
    + destruct H as [-> H]. split; [reflexivity|]. left. exists k, f. auto.
  - destruct (nth_error (frames s) k) as [f|] eqn:K; [|discriminate]. intro Q; apply some_eq in Q as <-.
    pose proof (ok_delete s k f I K) as H. destruct (delete_self _ s) as [s'| |x].
    + destruct H as (H & _ & Hk). split; [exact H|]. intros j M P NRm. rewrite Hk; [exact P|].
      intros ->. apply NRm. left. eauto.
    + exact Logic.I.
    + destruct H as [-> H]. split; [reflexivity|]. left. exists k, f. auto.
  - destruct (existsb (Nat.eqb p) (ups s)) eqn:E; [|discriminate]. intro Q; apply some_eq in Q as <-.
    assert (Lp := existsb_lt s p I (or_intror E)).
    destruct (inv_index s p I Lp) as (m & c & q & M & C & P & Gd).
    apply occ_in in E.
    assert (m = CppOwned) as ->.
    { destruct Gd as (_ & _ & _ & X & _). destruct m; [reflexivity| |]; rewrite X in E; (discriminate || lia). }
    assert (exists o, q = PLive o) as [o ->].
    { destruct q as [o|]; [eauto|]. destruct Gd as (_ & X & _). lia. }
    pose proof (ok_remove s p o I P) as H. destruct (really_remove_ownership p s).
    + destruct H as (H & _ & Hk). split; [exact H|]. intros j Mj Pj NRm. rewrite Hk; [exact Pj|congruence].
    + exact Logic.I.
    + destruct H as (_ & _ & H & _). congruence.
  - destruct (nth_error (peers s) p) as [[o|]|] eqn:P; try discriminate. intro Q; apply some_eq in Q as <-.
    pose proof (ok_remove s p o I P) as H. destruct (really_remove_ownership p s).
    { destruct H as (H & _ & Hk). split; [exact H|]. intros j Mj Pj NRm. rewrite Hk; [exact Pj|].
      intros ->. apply NRm. now right. }
    { exact Logic.I. }
    destruct H as (-> & -> & M & b & C). split; [reflexivity|]. right. exists p. split; [reflexivity|].
    assert (Lp := nth_len _ _ _ M).
    destruct (inv_index s p I Lp) as (m & c & q & M' & C' & P' & Gd).
    rewrite M in M'. rewrite C in C'. rewrite P in P'. inversion M'; inversion C'; inversion P'; subst.
    destruct Gd as ((X & _) & _ & _ & _ & _ & _ & Xg & _). cbn [strong_of] in X.
    split; [exact M|]. split.
    + intro Ir. assert (Z : occ (rcs s) p > 0) by (now apply count_occ_In). lia.
    + intros f If Ef. apply In_nth_error in If as [k K].
      pose proof (cnt_remove (is_up p) _ _ _ K) as N1.
      pose proof (cnt_remove (guard_of p) _ _ _ K) as N2.
      pose proof (cnt_remove (is_new p) _ _ _ K) as N3.
      destruct f; cbn [frame_cell] in Ef; subst; cbn [is_up guard_of is_new] in *;
        rewrite Nat.eqb_refl in *; lia.
  - exfalso. exact (NR k eq_refl).
  - destruct I as (_ & _ & _ & _ & _ & V). rewrite V. destruct k; discriminate.
Qed.

Lemma inv_init : inv init.
Proof.
  unfold inv, init. cbn. repeat split; auto; try (intros; contradiction).
  - intros [|i] m H; discriminate.
  - intros i [H|H]; contradiction.
Qed.

(** ** What the other parts of the state are after a step *)

Definition book (s s' : state) : Prop :=
  rcs s' = rcs s /\ ups s' = ups s /\ frames s' = frames s /\ modes s' = modes s.

(** A peer which no longer holds its object, or is gone. *)
Definition weak (s : state) (p : nat) : Prop :=
  nth_error (peers s) p = Some PFreed \/ nth_error (peers s) p = Some (PLive (Some (RWeak p))).

Lemma drop_book f x s s' :
  drop f x s = Next s' -> book s s' /\ (forall p, weak s p -> weak s' p).
Proof.
  revert x s; induction f as [|f IH]; intros x s; [discriminate|]. cbn [drop].
  destruct x as [i|p].
  - destruct (the_cell s i) as [c| |]; cbn [bind]; [|discriminate|discriminate].
    assert (B : forall c', book s (set_cell i c' s) /\ (forall p, weak s p -> weak (set_cell i c' s) p))
      by (intro; split; [repeat split|]; unfold weak; st; auto).
    destruct (c_strong c) as [|[|n]]; [discriminate| |].
    + destruct (c_obj c); try (intros [= <-]; apply B).
      intro E. apply IH in E as [E1 E2]. split; [exact E1|]. intros q W. apply E2, B, W.
    + intros [= <-]. apply B.
  - destruct (nth_error (peers s) p) as [[o|]|] eqn:P; try discriminate.
    assert (B : book s (set_peer p PFreed s) /\ (forall q, weak s q -> weak (set_peer p PFreed s) q)).
    { split; [repeat split|]. unfold weak. st. intros q W. destruct (Nat.eq_dec q p) as [->|N].
      - left. apply upd_same. exact (nth_len _ _ _ P).
      - rewrite upd_other by exact N. exact W. }
    destruct o as [[i|i]|]; try (intros [= <-]; exact B).
    intro E. apply IH in E as [E1 E2]. split; [exact E1|]. intros q W. apply E2, B, W.
Qed.

Definition frames_after (s : state) (e : event) : list frame :=
  match e with
  | ENewBegin m => FNew m (List.length (modes s)) :: frames s
  | ENewEnd k | EEnd k => remove_nth k (frames s)
  | EGuard i a => FGuard i a :: frames s
  | EUpcall p a => FUpcall p p a :: frames s
  | _ => frames s
  end.

Definition ups_after (s : state) (e : event) : list nat :=
  match e with
  | ENewEnd k => match nth_error (frames s) k with Some (FNew CppOwned i) => i :: ups s | _ => ups s end
  | EDropUp p => remove1 p (ups s)
  | _ => ups s
  end.

Definition modes_after (s : state) (e : event) : list mode :=
  match e with ENewBegin m => modes s ++ [m] | _ => modes s end.

Lemma bind_next {A B} (r : result A) (f : A -> result B) y :
  bind r f = Next y -> exists x, r = Next x /\ f x = Next y.
Proof. destruct r; cbn; try discriminate. eauto. Qed.

Ltac binds H := apply bind_next in H as (? & ? & H).

Lemma set_holder_book i h s s' :
  set_holder i h s = Next s' -> book s s' /\ (forall p, weak s p -> weak s' p).
Proof.
  unfold set_holder. intro H. binds H.
  set (s0 := set_cell i _ s) in H.
  assert (B : book s s0 /\ (forall p, weak s p -> weak s0 p)) by (split; [repeat split|auto]).
  destruct (c_obj x) in H; try (injection H as <-; exact B).
  apply drop_book in H as [E1 E2]. split; [exact E1|]. intros q W. apply E2, B, W.
Qed.

Lemma borrow_cell_book i a s s' :
  borrow_cell i a s = Next (Some s') -> book s s' /\ peers s' = peers s.
Proof.
  unfold borrow_cell. intro H. binds H. destruct (try_borrow a (c_flag x)); [|discriminate].
  injection H as <-. repeat split.
Qed.

Lemma release_cell_book i a s s' :
  release_cell i a s = Next s' -> book s s' /\ peers s' = peers s.
Proof. unfold release_cell. intro H. binds H. injection H as <-. repeat split. Qed.

Lemma clone_rc_book i s s' : clone_rc i s = Next s' -> book s s' /\ peers s' = peers s.
Proof. unfold clone_rc. intro H. binds H. injection H as <-. repeat split. Qed.

Lemma peers_weak s s' p : peers s' = peers s -> weak s p -> weak s' p.
Proof. unfold weak. intros ->. auto. Qed.

Lemma remove_book p s s' : really_remove_ownership p s = Next s' -> book s s'.
Proof.
  unfold really_remove_ownership. intro H. binds H. destruct x as [h|]; [|discriminate].
  binds H. destruct x as [h' s1]. binds H. injection H as <-. unfold book. st.
  destruct h; cbn [holder_relinquish] in *.
  - match goal with E : bind _ _ = Next (h', s1) |- _ => binds E end.
    match goal with E : drop _ _ _ = Next _ |- _ => apply drop_book in E as [(B1 & B2 & B3 & B4) _] end.
    match goal with E : Next _ = Next _ |- _ => injection E as <- <- end. auto.
  - match goal with E : Next _ = Next _ |- _ => injection E as <- <- end. auto.
Qed.

Lemma weak_remove s p o s' q :
  inv s -> nth_error (peers s) p = Some (PLive o) -> really_remove_ownership p s = Next s' ->
  weak s q -> weak s' q.
Proof.
  intros I P E W. pose proof (ok_remove s p o I P) as H. rewrite E in H. destruct H as (_ & H1 & H2).
  destruct (Nat.eq_dec q p) as [->|N]; [now right|]. unfold weak. now rewrite H2.
Qed.

Lemma holder_peer_live h s p :
  holder_peer h s = Next p -> exists o, nth_error (peers s) p = Some (PLive o).
Proof.
  destruct h as [|q|q]; cbn; intro H; [discriminate| |]; binds H; injection H as <-; unfold the_peer in *;
    destruct (nth_error (peers s) q) as [[o|]|]; try discriminate; eauto.
Qed.

Lemma step_eff s e s' :
  inv s -> (forall k, e <> EReplace k) -> step s e = Some (Next s') ->
  frames s' = frames_after s e /\ ups s' = ups_after s e /\ modes s' = modes_after s e /\
  (forall p, weak s p -> weak s' p).
Proof.
  intros I NR. destruct e as [m|k|i|i|p|i a|p a|k|k|k|p|p|k|k]; cbn [step]; unfold frames_after, ups_after, modes_after; intro Q.
  - apply some_eq in Q. injection Q as <-. unfold new_begin.
    replace (List.length (cells s)) with (List.length (modes s)) by (destruct I as (-> & _); reflexivity).
    destruct m; st; (split; [reflexivity|]; split; [reflexivity|]; split; [reflexivity|]);
      intros p [W|W]; unfold weak; st; rewrite nth_error_app1 by exact (nth_len _ _ _ W); auto.
  - destruct (nth_error (frames s) k) as [[m i| |]|] eqn:K; try discriminate. apply some_eq in Q.
    destruct m; cbn [new_end] in Q.
    + binds Q. binds Q. binds Q. injection Q as <-.
      match goal with E : set_holder _ _ _ = _ |- _ => apply set_holder_book in E as ((A1 & A2 & A3 & A4) & A5) end.
      match goal with E : release_cell _ _ _ = _ |- _ => apply release_cell_book in E as ((B1 & B2 & B3 & B4) & B5) end.
      match goal with E : drop _ _ _ = _ |- _ => apply drop_book in E as ((C1 & C2 & C3 & C4) & C5) end.
      stin A1. stin A2. stin A3. stin A4. st. rewrite C3, B3, A3, C2, B2, A2, C4, B4, A4. repeat (split; [reflexivity|]).
      intros p W. apply C5. eapply peers_weak; [exact B5|]. now apply A5.
    + binds Q. binds Q. injection Q as <-.
      match goal with E : set_holder _ _ _ = _ |- _ => apply set_holder_book in E as ((A1 & A2 & A3 & A4) & A5) end.
      match goal with E : release_cell _ _ _ = _ |- _ => apply release_cell_book in E as ((B1 & B2 & B3 & B4) & B5) end.
      stin A1. stin A2. stin A3. stin A4. st. rewrite B3, A3, B2, A2, B4, A4. repeat (split; [reflexivity|]).
      intros p W. eapply peers_weak; [exact B5|]. now apply A5.
    + binds Q. binds Q. injection Q as <-.
      match goal with E : set_holder _ _ _ = _ |- _ => apply set_holder_book in E as ((A1 & A2 & A3 & A4) & A5) end.
      match goal with E : release_cell _ _ _ = _ |- _ => apply release_cell_book in E as ((B1 & B2 & B3 & B4) & B5) end.
      stin A1. stin A2. stin A3. stin A4. st. rewrite B3, A3, B2, A2, B4, A4. repeat (split; [reflexivity|]).
      intros p W. eapply peers_weak; [exact B5|]. now apply A5.
  - destruct (existsb (Nat.eqb i) (rcs s)); [|discriminate]. apply some_eq in Q. binds Q. injection Q as <-.
    match goal with E : clone_rc _ _ = _ |- _ => apply clone_rc_book in E as ((A1 & A2 & A3 & A4) & A5) end.
    st. repeat (split; [assumption|]). intros p. now apply peers_weak.
  - destruct (_ && _); [|discriminate]. apply some_eq in Q. apply drop_book in Q as ((A1 & A2 & A3 & A4) & A5).
    repeat (split; [assumption|]). intros p W. now apply A5.
  - destruct (existsb _ _); [|discriminate]. apply some_eq in Q. apply drop_book in Q as ((A1 & A2 & A3 & A4) & A5).
    repeat (split; [assumption|]). intros q W. now apply A5.
  - destruct (existsb (Nat.eqb i) (rcs s)); [|discriminate]. apply some_eq in Q. binds Q.
    destruct x as [s1|]; [|discriminate]. injection Q as <-.
    match goal with E : borrow_cell _ _ _ = _ |- _ => apply borrow_cell_book in E as ((A1 & A2 & A3 & A4) & A5) end.
    st. rewrite A3. repeat (split; [auto|]). intros p. now apply peers_weak.
  - destruct (nth_error (peers s) p) as [[o|]|] eqn:P; try discriminate. apply some_eq in Q.
    unfold upcall, the_peer in Q. rewrite P in Q. cbn [bind] in Q.
    assert (Hg : forall h i s1, h = RStrong p \/ h = RWeak p -> holder_get h s = Next (Some (i, s1)) ->
      i = p /\ book s s1 /\ peers s1 = peers s).
    { intros h i s1 [-> | ->]; cbn [holder_get]; intro E.
      - binds E. injection E as <- <-. split; [reflexivity|]. now apply clone_rc_book in H.
      - destruct (nth_error (cells s) p) as [[c|]|]; try discriminate.
        binds E. injection E as <- <-. split; [reflexivity|]. now apply clone_rc_book in H. }
    destruct o as [h|]; [|discriminate]. binds Q. destruct x as [[i s1]|]; [|discriminate].
    binds Q. destruct x as [s2|]; [|discriminate]. injection Q as <-.
    destruct (Hg h i s1) as (-> & (B1 & B2 & B3 & B4) & B5); [destruct (live_obs s p _ I P) as [X|X]; injection X as ->; auto|assumption|].
    match goal with E : borrow_cell _ _ _ = _ |- _ => apply borrow_cell_book in E as ((A1 & A2 & A3 & A4) & A5) end.
    st. rewrite A3, A2, A4, B3. repeat (split; [auto|]). intros q. apply peers_weak. cbn. congruence.
  - destruct (nth_error (frames s) k) as [[m i|i a|q i a]|] eqn:K; try discriminate; apply some_eq in Q.
    + apply release_cell_book in Q as ((A1 & A2 & A3 & A4) & A5). repeat (split; [assumption|]).
      intros p. now apply peers_weak.
    + unfold upcall_end in Q. binds Q. apply release_cell_book in H as ((A1 & A2 & A3 & A4) & A5).
      apply drop_book in Q as ((B1 & B2 & B3 & B4) & B5). rewrite B3, B2, B4.
      repeat (split; [assumption|]). intros p W. apply B5. eapply peers_weak; [exact A5|exact W].
  - destruct (nth_error (frames s) k) as [f|] eqn:K; [|discriminate]. apply some_eq in Q. binds Q. binds Q.
    injection Q as <-. auto.
  - destruct (nth_error (frames s) k) as [f|] eqn:K; [|discriminate]. apply some_eq in Q.
    unfold delete_self in Q. binds Q. binds Q.
    match goal with E : holder_peer _ _ = _ |- _ => destruct (holder_peer_live _ _ _ E) as [o Po] end.
    destruct (remove_book _ _ _ Q) as (A1 & A2 & A3 & A4). repeat (split; [assumption|]).
    intros q W. exact (weak_remove _ _ _ _ _ I Po Q W).
  - destruct (existsb (Nat.eqb p) (ups s)) eqn:E; [|discriminate]. apply some_eq in Q.
    destruct (remove_book _ _ _ Q) as (A1 & A2 & A3 & A4). repeat (split; [assumption|]).
    intros q W. assert (exists o, nth_error (peers s) p = Some (PLive o)) as [o Po].
    { unfold really_remove_ownership, the_peer in Q.
      destruct (nth_error (peers s) p) as [[o|]|]; try discriminate. eauto. }
    exact (weak_remove _ _ _ _ _ I Po Q W).
  - destruct (nth_error (peers s) p) as [[o|]|] eqn:P; try discriminate. apply some_eq in Q.
    destruct (remove_book _ _ _ Q) as (A1 & A2 & A3 & A4). repeat (split; [assumption|]).
    intros q W. exact (weak_remove _ _ _ _ _ I P Q W).
  - exfalso. exact (NR k eq_refl).
  - destruct I as (_ & _ & _ & _ & _ & V). rewrite V in Q. destruct k; discriminate.
Qed.
