(** Theorems about passing arguments by value and by rvalue reference: C44. *)
From Verif Require Import Base ValueParamModel.
From Coq Require Import Lia Permutation.

(** * Specification *)

Definition constructed (a : addr) (t : list event) : nat :=
  length (filter (fun e => match e with EConstruct b => Nat.eqb b a | _ => false end) t).
Definition destroyed (a : addr) (t : list event) : nat :=
  length (filter (fun e => match e with EDestroy b => Nat.eqb b a | _ => false end) t).
Definition calls (t : list event) : list (list addr) :=
  flat_map (fun e => match e with ECall l => [l] | _ => [] end) t.

(** The objects an argument refers to without owning them. *)
Definition borrowed (p : param) : list addr :=
  match p with
  | VRef a | VRefBox a | VRefUnique (Some a) => [a]
  | VNew c => filter (fun a => negb (existsb (Nat.eqb a) (c_owns c))) (c_uses c)
  | _ => []
  end.
(** What the Rust compiler guarantees: objects exist, have one owner, and what is borrowed is not given
    away by another argument. *)
Record args_ok (ps : list param) (m : mem) : Prop := {
  ao_live : forall a, In a (flat_map owned ps ++ flat_map borrowed ps) -> a < m_next m /\ m_cells m a = CLive;
  ao_once : NoDup (flat_map owned ps);
  ao_apart : forall a, In a (flat_map owned ps) -> ~ In a (flat_map borrowed ps);
  ao_start : m_trace m = []
}.
Definition no_ctor_panics (ps : list param) : Prop := forall c, In (VNew c) ps -> c_panics c = false.
Definition is_null (p : param) : Prop :=
  match p with VUnique None | RUnique None | VRefUnique None => True | _ => False end.
(** The pointer C++ gets for an argument: to a new object which was constructed and not destroyed, or to the object
    the argument owns. *)
Definition passed (m : mem) (t : list event) (p : param) (ptr : addr) : Prop :=
  match p with
  | VRef _ | VRefBox _ | VRefUnique _ | VNew _ => m_next m <= ptr /\ constructed ptr t = 1 /\ destroyed ptr t = 0
  | VUnique q | RUnique q => q = Some ptr /\ destroyed ptr t = 0
  | VBox q | RBox q | RMoveRef q => q = ptr /\ destroyed ptr t = 0
  end.

(** * Lemmas *)

Lemma constructed_app a t u : constructed a (t ++ u) = constructed a t + constructed a u.
Proof. unfold constructed. rewrite filter_app, app_length. reflexivity. Qed.
Lemma destroyed_app a t u : destroyed a (t ++ u) = destroyed a t + destroyed a u.
Proof. unfold destroyed. rewrite filter_app, app_length. reflexivity. Qed.
Lemma calls_app t u : calls (t ++ u) = calls t ++ calls u.
Proof. unfold calls. apply flat_map_app. Qed.
Lemma destroyed_not a l : ~ In a l -> destroyed a (map EDestroy l) = 0.
Proof.
  induction l as [|b l IH]; intros N; [reflexivity|]. unfold destroyed. cbn [map filter].
  destruct (Nat.eqb_spec b a) as [->|_]; [destruct N; left; reflexivity|]. apply IH. intros I. apply N. right. exact I.
Qed.
Lemma constructed_destroys a l : constructed a (map EDestroy l) = 0.
Proof. induction l; [reflexivity|exact IHl]. Qed.
Lemma calls_destroys l : calls (map EDestroy l) = [].
Proof. induction l; [reflexivity|exact IHl]. Qed.

(** The account of every object: [own] are the objects given away at the start in [m0], [R] what there is to be destroyed now. *)
Record account (m0 : mem) (own : list addr) (m : mem) (R : list addr) : Prop := {
  ac_nodup : NoDup R;
  ac_next : m_next m0 <= m_next m;
  ac_in : forall a, In a R -> a < m_next m /\ m_cells m a = CLive /\ (a < m_next m0 -> In a own);
  ac_own : forall a, a < m_next m0 -> In a own ->
    constructed a (m_trace m) = 0 /\ ((In a R /\ destroyed a (m_trace m) = 0) \/ (~ In a R /\ destroyed a (m_trace m) = 1));
  ac_rest : forall a, a < m_next m0 -> ~ In a own ->
    constructed a (m_trace m) = 0 /\ destroyed a (m_trace m) = 0 /\ m_cells m a = m_cells m0 a;
  ac_slot : forall a, m_next m0 <= a -> a < m_next m ->
    (In a R /\ constructed a (m_trace m) = 1 /\ destroyed a (m_trace m) = 0) \/
    (~ In a R /\ m_cells m a <> CLive /\ constructed a (m_trace m) = destroyed a (m_trace m) /\ constructed a (m_trace m) <= 1);
  ac_fresh : forall a, m_next m <= a -> constructed a (m_trace m) = 0 /\ destroyed a (m_trace m) = 0
}.

Lemma account_perm m0 own m R R' : Permutation R R' -> account m0 own m R -> account m0 own m R'.
Proof.
  intros P [ND N I O Re SL F].
  assert (E : forall a, In a R <-> In a R'). { intros a. split; apply Permutation_in; [exact P|symmetry; exact P]. }
  constructor; auto.
  - eapply Permutation_NoDup; eassumption.
  - intros a J. apply I, E, J.
  - intros a L J. rewrite <- E. auto.
  - intros a L J. rewrite <- E. auto.
Qed.

Lemma account_destroy m0 own m a R : account m0 own m (a :: R) ->
  exists m', destroy a m = (m', Done tt) /\ account m0 own m' R /\ m_trace m' = m_trace m ++ [EDestroy a] /\ m_next m' = m_next m.
Proof.
  intros [ND N I O Re SL F]. destruct (I a (or_introl eq_refl)) as (LT & LV & OW).
  unfold destroy. rewrite LV. eexists. split; [reflexivity|].
  apply NoDup_cons_iff in ND as [NA ND].
  assert (CE : forall b, constructed b (m_trace m ++ [EDestroy a]) = constructed b (m_trace m)).
  { intros b. rewrite constructed_app. cbn. lia. }
  assert (DE : forall b, b <> a -> destroyed b (m_trace m ++ [EDestroy a]) = destroyed b (m_trace m)).
  { intros b NE. rewrite destroyed_app. unfold destroyed at 2. cbn. destruct (Nat.eqb_spec a b); [congruence|]. cbn. lia. }
  assert (DA : destroyed a (m_trace m ++ [EDestroy a]) = S (destroyed a (m_trace m))).
  { rewrite destroyed_app. unfold destroyed at 2. cbn. rewrite Nat.eqb_refl. cbn. lia. }
  split; [|split; reflexivity]. constructor; cbn [set_cell m_trace m_cells m_next].
  - exact ND.
  - exact N.
  - intros b J. destruct (Nat.eqb_spec b a) as [->|NE]; [contradiction|]. apply I. right. exact J.
  - intros b L J. rewrite CE. destruct (O b L J) as [C D]. split; [exact C|].
    destruct (Nat.eq_dec b a) as [->|NE].
    + right. rewrite DA. destruct D as [[_ D]|[D _]]; [split; [exact NA|lia]|destruct D; left; reflexivity].
    + rewrite DE by exact NE. destruct D as [[[D|D] E]|[D E]]; [congruence|left; auto|right]. split; [|exact E]. intros K. apply D. right. exact K.
  - intros b L J. assert (NE : b <> a) by (intros ->; auto). rewrite CE, DE by exact NE. destruct (Nat.eqb_spec b a); [contradiction|]. auto.
  - intros b L J. rewrite CE. destruct (Nat.eq_dec b a) as [->|NE].
    + right. rewrite DA, Nat.eqb_refl. destruct (SL a L J) as [(_ & C & D)|(D & _)]; [|destruct D; left; reflexivity].
      repeat split; try assumption; try discriminate; lia.
    + rewrite DE by exact NE. destruct (Nat.eqb_spec b a); [contradiction|].
      destruct (SL b L J) as [([D|D] & C & E)|(D & E)]; [congruence|left; auto|right]. split; [|exact E]. intros K. apply D. right. exact K.
  - intros b L. rewrite CE. rewrite DE by lia. apply F. exact L.
Qed.

Lemma account_destroys m0 own l : forall m R, account m0 own m (l ++ R) ->
  exists m', seq destroy l m = (m', Done tt) /\ account m0 own m' R /\ m_trace m' = m_trace m ++ map EDestroy l /\ m_next m' = m_next m.
Proof.
  induction l as [|a l IH]; intros m R A; cbn [seq map].
  - exists m. rewrite app_nil_r. auto.
  - destruct (account_destroy _ _ _ _ _ A) as (m1 & D & A1 & T & N). rewrite D.
    destruct (IH _ _ A1) as (m2 & D2 & A2 & T2 & N2). exists m2. rewrite T2, T, <- app_assoc, N2, N. auto.
Qed.

Lemma seq_use l m : (forall a, In a l -> m_cells m a = CLive) -> seq use l m = (m, Done tt).
Proof.
  induction l as [|a l IH]; intros H; cbn [seq]; [reflexivity|]. unfold use at 1. rewrite (H a (or_introl eq_refl)).
  apply IH. intros b J. apply H. right. exact J.
Qed.

(** A new handler. *)
Lemma account_default m0 own m R : account m0 own m R ->
  let m1 := fst (handler_default m) in account m0 own m1 R /\ m_cells m1 (m_next m) = CUninit /\ m_next m1 = S (m_next m) /\ m_trace m1 = m_trace m.
Proof.
  intros [ND N I O Re SL F]. cbn [handler_default fst m_cells m_next m_trace]. rewrite Nat.eqb_refl. split; [|auto]. constructor; cbn [m_cells m_next m_trace]; auto.
  - intros a J. destruct (I a J) as (LT & LV & OW). destruct (Nat.eqb_spec a (m_next m)); [lia|]. split; [lia|auto].
  - intros a L J. destruct (Re a L J) as (X & Y & Z). destruct (Nat.eqb_spec a (m_next m)); [lia|]. auto.
  - intros a L J. destruct (Nat.eqb_spec a (m_next m)) as [->|NE].
    + right. destruct (F (m_next m) (le_n _)) as [-> ->]. repeat split; try discriminate; try lia.
      intros K. apply I in K. lia.
    + apply SL; lia.
  - intros a L. apply F. lia.
Qed.

(** A constructor in the space of a new handler. *)
Lemma account_construct m0 own m a R : account m0 own m R -> m_next m0 <= a -> a < m_next m -> m_cells m a = CUninit ->
  constructed a (m_trace m) = 0 ->
  exists m', construct a m = (m', Done tt) /\ account m0 own m' (a :: R) /\ m_trace m' = m_trace m ++ [EConstruct a] /\ m_next m' = m_next m /\
    (forall b, b <> a -> m_cells m' b = m_cells m b).
Proof.
  intros [ND N I O Re SL F] L1 L2 U C0. unfold construct. rewrite U. eexists. split; [reflexivity|].
  assert (NA : ~ In a R). { intros J. apply I in J as (_ & J & _). congruence. }
  assert (DE : forall b, destroyed b (m_trace m ++ [EConstruct a]) = destroyed b (m_trace m)).
  { intros b. rewrite destroyed_app. cbn. lia. }
  assert (CE : forall b, b <> a -> constructed b (m_trace m ++ [EConstruct a]) = constructed b (m_trace m)).
  { intros b NE. rewrite constructed_app. unfold constructed at 2. cbn. destruct (Nat.eqb_spec a b); [congruence|]. cbn. lia. }
  assert (CA : constructed a (m_trace m ++ [EConstruct a]) = 1).
  { rewrite constructed_app, C0. unfold constructed. cbn. rewrite Nat.eqb_refl. reflexivity. }
  split; [|split; [reflexivity|split; [reflexivity|]]].
  2:{ intros b NE. cbn. destruct (Nat.eqb_spec b a); [contradiction|reflexivity]. }
  constructor; cbn [set_cell m_trace m_cells m_next].
  - constructor; assumption.
  - exact N.
  - intros b [<-|J]; [rewrite Nat.eqb_refl; repeat split; lia|]. destruct (Nat.eqb_spec b a) as [->|NE]; [contradiction|]. apply I. exact J.
  - intros b L J. rewrite DE, CE by lia. destruct (O b L J) as [C [[D E]|[D E]]]; split; auto; [left; split; [right; exact D|exact E]|].
    right. split; [|exact E]. intros [K|K]; [lia|auto].
  - intros b L J. rewrite DE, CE by lia. destruct (Nat.eqb_spec b a); [lia|]. auto.
  - intros b L J. rewrite DE. destruct (Nat.eq_dec b a) as [->|NE].
    + left. rewrite CA. split; [left; reflexivity|]. split; [reflexivity|]. destruct (SL a L1 L2) as [(K & _)|(_ & _ & C & _)]; [contradiction|]. lia.
    + rewrite CE by exact NE. destruct (Nat.eqb_spec b a); [contradiction|]. destruct (SL b L J) as [(D & E)|(D & E)]; [left; split; [right; exact D|exact E]|].
      right. split; [|exact E]. intros [K|K]; [congruence|auto].
  - intros b L. rewrite DE, CE by lia. apply F. exact L.
Qed.

(** What a handler has to destroy. *)
Definition held (h : handler) : list addr :=
  match h_space h with
  | None | Some (SUnique None) => []
  | Some SMaybe => [h_slot h]
  | Some (SUnique (Some a)) | Some (SBox a) => [a]
  end.

Lemma drop_handler_held h m : drop_handler h m = seq destroy (held h) m.
Proof.
  unfold drop_handler, held, drop_field. destruct (h_space h) as [[|[a|]|a]|]; try reflexivity; cbn [seq].
  all: match goal with |- destroy ?a ?m = _ => destruct (destroy a m) as [m1 [[]| |]]; reflexivity end.
Qed.
Lemma seq_app f l1 : forall l2 m, seq f (l1 ++ l2) m = match seq f l1 m with (m1, Done _) => seq f l2 m1 | r => r end.
Proof.
  induction l1 as [|a l1 IH]; intros l2 m; cbn; [reflexivity|]. destruct (f a m) as [m1 [[]| |]]; try reflexivity. apply IH.
Qed.
Lemma drop_handlers_held hs : forall m, drop_handlers hs m = seq destroy (flat_map held hs) m.
Proof.
  induction hs as [|h hs IH]; intros m; cbn [drop_handlers flat_map]; [reflexivity|].
  rewrite seq_app, drop_handler_held. destruct (seq destroy (held h) m) as [m1 [[]| |]]; try reflexivity. apply IH.
Qed.

(** What the handler has is what the argument needs. *)
Definition suits (m0 : mem) (p : param) (h : handler) : Prop :=
  match p with
  | VRefUnique None => False
  | VRef _ | VRefBox _ | VRefUnique _ | VNew _ => h_space h = Some SMaybe /\ m_next m0 <= h_slot h
  | VUnique q | RUnique q => h_space h = Some (SUnique q)
  | VBox q | RBox q | RMoveRef q => h_space h = Some (SBox q)
  end.

Lemma account_uninit m0 own m a R : account m0 own m R -> m_cells m a = CUninit -> account m0 own (set_cell m a CUninit []) R.
Proof.
  intros [ND N I O Re SL F] U. constructor; cbn [set_cell m_cells m_next m_trace]; rewrite ?app_nil_r; auto.
  - intros b J. destruct (Nat.eqb_spec b a) as [->|_]; [|auto]. destruct (I a J) as (_ & X & _). congruence.
  - intros b L J. destruct (Nat.eqb_spec b a) as [->|_]; [|auto]. destruct (Re a L J) as (X & Y & Z). rewrite <- U. auto.
  - intros b L J. destruct (Nat.eqb_spec b a) as [->|_]; [|auto]. rewrite <- U. auto.
Qed.

Lemma run_new_ok m0 own m R c : account m0 own m (c_owns c ++ R) -> m_next m0 <= m_next m ->
  (forall a, In a (c_uses c) -> In a (c_owns c) \/ (a < m_next m0 /\ m_cells m0 a = CLive /\ ~ In a own)) -> c_panics c = false ->
  let (m1, h) := handler_default m in let (m2, h2) := assign_uninit h m1 in
  exists m3, run_new c (h_slot h) m2 = (m3, Done tt) /\ h_slot h2 = m_next m /\ h_space h2 = Some SMaybe /\
    account m0 own m3 (m_next m :: R) /\ m_next m3 = S (m_next m) /\ calls (m_trace m3) = calls (m_trace m).
Proof.
  intros A LE U P. destruct (account_default _ _ _ _ A) as (A1 & U1 & N1 & T1).
  destruct (handler_default m) as [m1 h] eqn:HD. cbn [fst] in *.
  assert (HS : h_slot h = m_next m) by (injection HD as _ <-; reflexivity).
  cbn [assign_uninit]. set (m2 := set_cell m1 (h_slot h) CUninit []).
  assert (A2 : account m0 own m2 (c_owns c ++ R)). { apply account_uninit; [exact A1|]. rewrite HS. exact U1. }
  unfold run_new. rewrite seq_use.
  2:{ intros a J. destruct (U a J) as [K|(L & LV & NO)].
      - apply (ac_in _ _ _ _ A2). apply in_or_app. left. exact K.
      - destruct (ac_rest _ _ _ _ A2 a L NO) as (_ & _ & ->). exact LV. }
  rewrite P.
  assert (T2 : m_trace m2 = m_trace m). { unfold m2. cbn. rewrite app_nil_r. exact T1. }
  destruct (account_construct m0 own m2 (h_slot h) (c_owns c ++ R)) as (m3 & C & A3 & T3 & N3 & _).
  { exact A2. } { rewrite HS. exact LE. } { rewrite HS. unfold m2. cbn. rewrite N1. lia. } { unfold m2. cbn. rewrite Nat.eqb_refl. reflexivity. }
  { rewrite T2, HS. apply (ac_fresh _ _ _ _ A (m_next m) (le_n _)). }
  rewrite C. destruct (account_destroys m0 own (c_owns c) m3 (h_slot h :: R)) as (m4 & D & A4 & T4 & N4).
  { eapply account_perm; [|exact A3]. apply Permutation_middle. }
  exists m4. rewrite D. split; [reflexivity|]. split; [exact HS|]. split; [reflexivity|]. split; [rewrite <- HS; exact A4|].
  split. { rewrite N4, N3. unfold m2. cbn. exact N1. }
  rewrite T4, T3, !calls_app, calls_destroys, T2. cbn. rewrite !app_nil_r. reflexivity.
Qed.

Lemma populate_ok m0 own m R p : account m0 own m (owned p ++ R) ->
  (forall a, In a (borrowed p) -> a < m_next m0 /\ m_cells m0 a = CLive /\ ~ In a own) ->
  (forall c, p = VNew c -> c_panics c = false) ->
  let (m1, h) := handler_default m in
  exists m2 h2 r, populate p h m1 = (m2, h2, r) /\ account m0 own m2 (held h2 ++ R) /\ calls (m_trace m2) = calls (m_trace m) /\ m_next m <= m_next m2 /\
    ((r = Done tt /\ suits m0 p h2) \/ (r = Panicked /\ p = VRefUnique None /\ held h2 = [])).
Proof.
  intros A B P. pose proof (ac_next _ _ _ _ A) as LE.
  assert (RN : forall c, owned p = c_owns c -> c_panics c = false ->
    (forall a, In a (c_uses c) -> In a (c_owns c) \/ (a < m_next m0 /\ m_cells m0 a = CLive /\ ~ In a own)) ->
    let (m1, h) := handler_default m in
    exists m2 h2 r, (let (m1, h1) := assign_uninit h m1 in let (m2, r) := run_new c (h_slot h) m1 in (m2, h1, r)) = (m2, h2, r) /\
      account m0 own m2 (held h2 ++ R) /\ calls (m_trace m2) = calls (m_trace m) /\ m_next m <= m_next m2 /\
      (r = Done tt /\ h_space h2 = Some SMaybe /\ m_next m0 <= h_slot h2)).
  { intros c E PC U. rewrite E in A. pose proof (run_new_ok m0 own m R c A LE U PC) as Q.
    destruct (handler_default m) as [m1 h]. destruct (assign_uninit h m1) as [m2 h2].
    destruct Q as (m3 & -> & S1 & S2 & A3 & N3 & C3). exists m3, h2, (Done tt). split; [reflexivity|].
    unfold held. rewrite S2, S1. cbn [app]. split; [exact A3|]. split; [exact C3|]. split; [lia|]. auto. }
  assert (MV : forall s, held (Handler 0 (Some s)) = owned p -> s <> SMaybe ->
    let (m1, h) := handler_default m in
    exists m2 h2 r, populate_move s h m1 = (m2, h2, r) /\ account m0 own m2 (held h2 ++ R) /\ calls (m_trace m2) = calls (m_trace m) /\ m_next m <= m_next m2 /\
      (r = Done tt /\ h_space h2 = Some s)).
  { intros s E NS. destruct (account_default _ _ _ _ A) as (A1 & _ & N1 & T1).
    destruct (handler_default m) as [m1 h] eqn:HD. cbn [fst] in *.
    assert (HN : h_space h = None) by (injection HD as _ <-; reflexivity).
    unfold populate_move. rewrite HN. cbn [drop_field]. exists m1, (Handler (h_slot h) (Some s)), (Done tt). split; [reflexivity|].
    assert (E2 : held (Handler (h_slot h) (Some s)) = owned p). { rewrite <- E. destruct s; [congruence|reflexivity|reflexivity]. }
    rewrite E2. split; [exact A1|]. split; [rewrite T1; reflexivity|]. split; [lia|]. auto. }
  destruct p as [a|q|a|[a|]|a|c|q|a|a].
  - specialize (RN (Ctor [a] [] false) eq_refl eq_refl). destruct (handler_default m) as [m1 h].
    destruct RN as (m2 & h2 & r & E & A2 & C2 & N2 & -> & H). { intros b [<-|[]]. right. apply B. left. reflexivity. }
    exists m2, h2, (Done tt). split; [exact E|]. split; [exact A2|]. split; [exact C2|]. split; [exact N2|]. left. split; [reflexivity|exact H].
  - specialize (MV (SUnique q)). destruct (handler_default m) as [m1 h].
    destruct MV as (m2 & h2 & r & E & A2 & C2 & N2 & -> & H); [destruct q; reflexivity|discriminate|].
    exists m2, h2, (Done tt). split; [exact E|]. split; [exact A2|]. split; [exact C2|]. split; [exact N2|]. left. split; [reflexivity|exact H].
  - specialize (MV (SBox a)). destruct (handler_default m) as [m1 h].
    destruct MV as (m2 & h2 & r & E & A2 & C2 & N2 & -> & H); [reflexivity|discriminate|].
    exists m2, h2, (Done tt). split; [exact E|]. split; [exact A2|]. split; [exact C2|]. split; [exact N2|]. left. split; [reflexivity|exact H].
  - specialize (RN (Ctor [a] [] false) eq_refl eq_refl). destruct (handler_default m) as [m1 h].
    destruct RN as (m2 & h2 & r & E & A2 & C2 & N2 & -> & H). { intros b [<-|[]]. right. apply B. left. reflexivity. }
    exists m2, h2, (Done tt). split; [exact E|]. split; [exact A2|]. split; [exact C2|]. split; [exact N2|]. left. split; [reflexivity|exact H].
  - destruct (account_default _ _ _ _ A) as (A1 & _ & N1 & T1). destruct (handler_default m) as [m1 h] eqn:HD. cbn [fst] in *.
    assert (HN : held h = []) by (injection HD as _ <-; reflexivity).
    exists m1, h, Panicked. split; [reflexivity|]. rewrite HN. split; [exact A1|]. split; [rewrite T1; reflexivity|]. split; [lia|]. right. auto.
  - specialize (RN (Ctor [a] [] false) eq_refl eq_refl). destruct (handler_default m) as [m1 h].
    destruct RN as (m2 & h2 & r & E & A2 & C2 & N2 & -> & H). { intros b [<-|[]]. right. apply B. left. reflexivity. }
    exists m2, h2, (Done tt). split; [exact E|]. split; [exact A2|]. split; [exact C2|]. split; [exact N2|]. left. split; [reflexivity|exact H].
  - specialize (RN c eq_refl (P c eq_refl)). destruct (handler_default m) as [m1 h].
    destruct RN as (m2 & h2 & r & E & A2 & C2 & N2 & -> & H).
    { intros b J. destruct (existsb (Nat.eqb b) (c_owns c)) eqn:X.
      - left. apply existsb_exists in X as (y & IY & X). apply Nat.eqb_eq in X as ->. exact IY.
      - right. apply B. cbn. apply filter_In. rewrite X. split; [exact J|reflexivity]. }
    exists m2, h2, (Done tt). split; [exact E|]. split; [exact A2|]. split; [exact C2|]. split; [exact N2|]. left. split; [reflexivity|exact H].
  - specialize (MV (SUnique q)). destruct (handler_default m) as [m1 h].
    destruct MV as (m2 & h2 & r & E & A2 & C2 & N2 & -> & H); [destruct q; reflexivity|discriminate|].
    exists m2, h2, (Done tt). split; [exact E|]. split; [exact A2|]. split; [exact C2|]. split; [exact N2|]. left. split; [reflexivity|exact H].
  - specialize (MV (SBox a)). destruct (handler_default m) as [m1 h].
    destruct MV as (m2 & h2 & r & E & A2 & C2 & N2 & -> & H); [reflexivity|discriminate|].
    exists m2, h2, (Done tt). split; [exact E|]. split; [exact A2|]. split; [exact C2|]. split; [exact N2|]. left. split; [reflexivity|exact H].
  - specialize (MV (SBox a)). destruct (handler_default m) as [m1 h].
    destruct MV as (m2 & h2 & r & E & A2 & C2 & N2 & -> & H); [reflexivity|discriminate|].
    exists m2, h2, (Done tt). split; [exact E|]. split; [exact A2|]. split; [exact C2|]. split; [exact N2|]. left. split; [reflexivity|exact H].
Qed.

Lemma account_live m0 own m R a : account m0 own m R -> In a R -> m_cells m a = CLive /\ destroyed a (m_trace m) = 0 /\
  (m_next m0 <= a -> constructed a (m_trace m) = 1).
Proof.
  intros A I. destruct (ac_in _ _ _ _ A a I) as (L & LV & OW). split; [exact LV|].
  destruct (Nat.lt_ge_cases a (m_next m0)) as [H|H].
  - destruct (ac_own _ _ _ _ A a H (OW H)) as (_ & [[_ D]|[N _]]); [|contradiction]. split; [exact D|lia].
  - destruct (ac_slot _ _ _ _ A a H L) as [(_ & C & D)|(N & _)]; [|contradiction]. auto.
Qed.

Lemma one_ptr m0 p h m : suits m0 p h -> ~ is_null p -> (forall a, In a (held h) -> m_cells m a = CLive) ->
  exists a, get_ptr h m = Done a /\ held h = [a].
Proof.
  unfold suits, is_null, get_ptr, held. intros S N L.
  destruct p as [a|[a|]|a|[a|]|a|c|[a|]|a|a]; try (destruct N; exact I); try (rewrite S in *; eexists; split; reflexivity).
  all: destruct S as [S _]; rewrite S in *; rewrite (L (h_slot h) (or_introl eq_refl)); eexists; split; reflexivity.
Qed.

Lemma get_ptrs_ok m0 m : forall qs hs, Forall2 (suits m0) qs hs -> (forall a, In a (flat_map held hs) -> m_cells m a = CLive) ->
  (Forall (fun p => ~ is_null p) qs /\ get_ptrs hs m = Done (flat_map held hs) /\ Forall2 (fun h a => held h = [a]) hs (flat_map held hs)) \/
  (Exists is_null qs /\ get_ptrs hs m = Panicked).
Proof.
  induction 1 as [|p h qs hs S F IH]; intros L.
  - left. repeat constructor.
  - cbn [get_ptrs flat_map].
    assert (D : is_null p \/ ~ is_null p). { destruct p as [a|[a|]|a|[a|]|a|c|[a|]|a|a]; cbn; auto. }
    destruct D as [D|D].
    + assert (G : get_ptr h m = Panicked).
      { unfold get_ptr. destruct p as [a|[a|]|a|[a|]|a|c|[a|]|a|a]; cbn in D, S; try contradiction; rewrite S; reflexivity. }
      rewrite G. right. split; [left; exact D|reflexivity].
    + destruct (one_ptr _ _ _ m S D) as (a & G & HE). { intros a J. apply L. apply in_or_app. left. exact J. }
      rewrite G, HE. destruct (IH (fun a J => L a (in_or_app _ _ _ (or_intror J)))) as [(N & E & F2)|(N & E)]; rewrite E.
      * left. split; [constructor; assumption|]. split; [reflexivity|]. cbn. constructor; assumption.
      * right. split; [right; exact N|reflexivity].
Qed.

Lemma call_ok ptrs m : (forall a, In a ptrs -> m_cells m a = CLive) ->
  call ptrs m = (Mem (m_cells m) (m_next m) (m_trace m ++ [ECall ptrs]), Done tt).
Proof. intros L. unfold call. rewrite seq_use by exact L. reflexivity. Qed.

Lemma account_call m0 own m R ptrs : account m0 own m R -> account m0 own (Mem (m_cells m) (m_next m) (m_trace m ++ [ECall ptrs])) R.
Proof.
  intros [ND N I O Re SL F].
  assert (C : forall a, constructed a (m_trace m ++ [ECall ptrs]) = constructed a (m_trace m)). { intros a. rewrite constructed_app. cbn. lia. }
  assert (D : forall a, destroyed a (m_trace m ++ [ECall ptrs]) = destroyed a (m_trace m)). { intros a. rewrite destroyed_app. cbn. lia. }
  constructor; cbn [m_cells m_next m_trace]; auto; intros a; rewrite C, D; auto.
Qed.

Lemma drop_params_owned ps m : drop_params ps m = seq destroy (flat_map owned ps) m.
Proof. reflexivity. Qed.

(** What holds at the end. *)
Definition ended (m0 : mem) (own : list addr) (qs : list param) (m' : mem) (o : out unit) : Prop :=
  account m0 own m' [] /\
  ((o = Done tt /\ Forall (fun p => ~ is_null p) qs /\ exists ptrs t1 t2, m_trace m' = t1 ++ ECall ptrs :: t2 /\ calls t1 = [] /\
      Forall2 (passed m0 t1) qs ptrs /\ exists l, t2 = map EDestroy l) \/
   (o = Panicked /\ Exists is_null qs /\ calls (m_trace m') = [])).

Lemma Forall2_rev {A B} (P : A -> B -> Prop) : forall l r, Forall2 P l r -> Forall2 P (rev l) (rev r).
Proof. induction 1; cbn; [constructor|]. apply Forall2_app; [assumption|repeat constructor; assumption]. Qed.
Lemma flat_map_rev_perm {A B} (f : A -> list B) l : Permutation (flat_map f l) (flat_map f (rev l)).
Proof.
  induction l as [|x l IH]; cbn; [constructor|]. rewrite flat_map_app. cbn. rewrite app_nil_r.
  rewrite Permutation_app_comm. apply Permutation_app; [exact IH|reflexivity].
Qed.

Lemma run_ok m0 own : forall ps qs hs m,
  account m0 own m (flat_map held hs ++ flat_map owned ps) -> Forall2 (suits m0) qs hs -> calls (m_trace m) = [] ->
  (forall a, In a (flat_map borrowed ps) -> a < m_next m0 /\ m_cells m0 a = CLive /\ ~ In a own) ->
  no_ctor_panics ps ->
  exists m' o, run_wrapper ps hs m = (m', o) /\ ended m0 own (rev qs ++ ps) m' o.
Proof.
  induction ps as [|p ps IH]; intros qs hs m A F C B P; cbn [run_wrapper].
  - cbn [flat_map] in A. rewrite app_nil_r in *.
    assert (A' : account m0 own m (flat_map held (rev hs))). { eapply account_perm; [apply flat_map_rev_perm|exact A]. }
    assert (LV : forall a, In a (flat_map held (rev hs)) -> m_cells m a = CLive). { intros a J. apply (account_live _ _ _ _ _ A' J). }
    destruct (get_ptrs_ok m0 m (rev qs) (rev hs) (Forall2_rev _ _ _ F) LV) as [(NN & E & F2)|(NN & E)]; rewrite E.
    + rewrite (call_ok _ _ LV), drop_handlers_held.
      destruct (account_destroys m0 own (flat_map held hs) _ [] (eq_rect_r _ (account_call _ _ _ _ (flat_map held (rev hs)) A) (app_nil_r _))) as (m' & D & A2 & T & _).
      exists m', (Done tt). split; [exact D|]. split; [exact A2|]. left. split; [reflexivity|]. split; [exact NN|].
      exists (flat_map held (rev hs)), (m_trace m), (map EDestroy (flat_map held hs)). split; [rewrite T; cbn; rewrite <- app_assoc; reflexivity|].
      split; [exact C|]. split; [|eauto].
      assert (IN : forall h a, In h (rev hs) -> held h = [a] -> In a (flat_map held (rev hs))).
      { intros h a J Q. apply in_flat_map. exists h. split; [exact J|]. rewrite Q. left. reflexivity. }
      pose proof (Forall2_rev _ _ _ F) as F3. clear - F2 F3 A' IN NN.
      assert (H : forall hs' qs' ptrs', Forall2 (suits m0) qs' hs' -> Forall2 (fun h a => held h = [a]) hs' ptrs' ->
                 (forall h, In h hs' -> In h (rev hs)) -> Forall2 (passed m0 (m_trace m)) qs' ptrs').
      { clear F2 F3 NN. induction hs' as [|h hs' IHh]; intros qs' ptrs' G1 G2 SUB; inversion G1; subst; inversion G2; subst; constructor.
        - pose proof (IN _ _ (SUB _ (or_introl eq_refl)) H1) as J. destruct (account_live _ _ _ _ _ A' J) as (_ & D & CC).
          unfold held in H1. destruct x as [a|q|a|[a|]|a|c|q|a|a]; cbn [suits] in H2; try contradiction; cbn [passed].
          all: try match type of H2 with _ /\ _ => destruct H2 as [S1 S2]; rewrite S1 in H1; injection H1 as H1; subst y; auto end.
          all: rewrite H2 in H1. all: try (injection H1 as ->; auto). all: destruct q as [b|]; [injection H1 as ->; auto|discriminate].
        - apply IHh; auto. intros h' J. apply SUB. right. exact J. }
      apply (H (rev hs)); auto.
    + rewrite drop_handlers_held. destruct (account_destroys m0 own (flat_map held hs) m [] (eq_rect_r _ A (app_nil_r _))) as (m' & D & A2 & T & _).
      rewrite D. exists m', Panicked. split; [reflexivity|]. split; [exact A2|]. right. split; [reflexivity|]. split; [exact NN|].
      rewrite T, calls_app, C, calls_destroys. reflexivity.
  - cbn [flat_map] in A, B.
    pose proof (populate_ok m0 own m (flat_map held hs ++ flat_map owned ps) p) as PO.
    destruct (handler_default m) as [m1 h].
    destruct PO as (m2 & h2 & r & E & A2 & C2 & N2 & [[-> S2]|(-> & -> & H2)]).
    { eapply account_perm; [|exact A]. rewrite !app_assoc. apply Permutation_app_tail. apply Permutation_app_comm. }
    { intros a J. apply B. apply in_or_app. left. exact J. }
    { intros c ->. apply P. left. reflexivity. }
    + rewrite E. destruct (IH (p :: qs) (h2 :: hs) m2) as (m' & o & R & EN).
      { cbn [flat_map]. rewrite <- app_assoc. exact A2. }
      { constructor; assumption. }
      { rewrite C2. exact C. }
      { intros a J. apply B. apply in_or_app. right. exact J. }
      { intros c J. apply P. right. exact J. }
      exists m', o. split; [exact R|]. cbn [rev] in EN. rewrite <- app_assoc in EN. exact EN.
    + rewrite E, drop_handlers_held. cbn [flat_map]. rewrite H2 in A2 |- *. cbn [app] in A2 |- *.
      destruct (account_destroys _ _ _ _ _ A2) as (m3 & D3 & A3 & T3 & _). rewrite D3. unfold drop_params.
      destruct (account_destroys m0 own (flat_map owned (rev ps)) m3 []) as (m4 & D4 & A4 & T4 & _).
      { rewrite app_nil_r. eapply account_perm; [apply flat_map_rev_perm|exact A3]. }
      rewrite D4. exists m4, Panicked. split; [reflexivity|]. split; [exact A4|]. right. split; [reflexivity|].
      split; [apply Exists_app; right; left; exact I|]. rewrite T4, T3, !calls_app, !calls_destroys, C2, C. reflexivity.
Qed.

Lemma start_ok ps m : args_ok ps m -> account m (flat_map owned ps) m (flat_map owned ps).
Proof.
  intros [L O AP T]. constructor; auto; rewrite ?T.
  - intros a J. destruct (L a (in_or_app _ _ _ (or_introl J))) as [X Y]. auto.
  - intros a _ J. split; [reflexivity|]. left. auto.
  - intros a _ _. auto.
  - intros a H1 H2. lia.
  - intros a _. auto.
Qed.

(** * Theorems *)

(** Passing arguments is never undefined behaviour, and every object is destroyed as often as it must be: what the
    arguments own exactly once, a temporary object as often as it was constructed and at most
    once, and everything else never; whether the call is made or a null pointer makes it panic. *)
Theorem c44_exactly_once : forall ps m, args_ok ps m -> no_ctor_panics ps ->
  exists m' o, run_wrapper ps [] m = (m', o) /\ o <> Undefined /\
    (forall a, In a (flat_map owned ps) -> destroyed a (m_trace m') = 1 /\ constructed a (m_trace m') = 0) /\
    (forall a, m_next m <= a -> destroyed a (m_trace m') = constructed a (m_trace m') /\ constructed a (m_trace m') <= 1) /\
    (forall a, a < m_next m -> ~ In a (flat_map owned ps) ->
       destroyed a (m_trace m') = 0 /\ constructed a (m_trace m') = 0 /\ m_cells m' a = m_cells m a).
Proof.
  intros ps m AO NP. destruct (run_ok m (flat_map owned ps) ps [] [] m) as (m' & o & R & A & E).
  { exact (start_ok _ _ AO). } { constructor. } { rewrite (ao_start _ _ AO). reflexivity. }
  { intros a J. destruct (ao_live _ _ AO a (in_or_app _ _ _ (or_intror J))) as [X Y]. split; [exact X|]. split; [exact Y|].
    intros K. exact (ao_apart _ _ AO a K J). }
  { exact NP. }
  exists m', o. split; [exact R|]. split; [destruct E as [[-> _]|[-> _]]; discriminate|]. split; [|split].
  - intros a J. destruct (ao_live _ _ AO a (in_or_app _ _ _ (or_introl J))) as [L _].
    destruct (ac_own _ _ _ _ A a L J) as [Cc [[F _]|[_ D]]]; [contradiction|auto].
  - intros a L. destruct (Nat.lt_ge_cases a (m_next m')) as [H|H].
    + destruct (ac_slot _ _ _ _ A a L H) as [(F & _)|(_ & _ & -> & D)]; [contradiction|split; [reflexivity|exact D]].
    + destruct (ac_fresh _ _ _ _ A a H) as [-> ->]. auto.
  - intros a L N. destruct (ac_rest _ _ _ _ A a L N) as (X & Y & Z). auto.
Qed.
Print Assumptions c44_exactly_once.

(** The call is made exactly when no argument is a null pointer; it is made once, after all temporaries were constructed and before any object it gets
    is destroyed, and each pointer is to the right object. *)
Theorem c44_call : forall ps m, args_ok ps m -> no_ctor_panics ps ->
  exists m' o, run_wrapper ps [] m = (m', o) /\
    (o = Done tt <-> Forall (fun p => ~ is_null p) ps) /\
    (o = Done tt -> exists t1 ptrs t2, m_trace m' = t1 ++ ECall ptrs :: t2 /\ calls t1 = [] /\ calls t2 = [] /\
       (forall a, constructed a t2 = 0) /\ Forall2 (passed m t1) ps ptrs) /\
    (o <> Done tt -> calls (m_trace m') = []).
Proof.
  intros ps m AO NP. destruct (run_ok m (flat_map owned ps) ps [] [] m) as (m' & o & R & A & E).
  { exact (start_ok _ _ AO). } { constructor. } { rewrite (ao_start _ _ AO). reflexivity. }
  { intros a J. destruct (ao_live _ _ AO a (in_or_app _ _ _ (or_intror J))) as [X Y]. split; [exact X|]. split; [exact Y|].
    intros K. exact (ao_apart _ _ AO a K J). }
  { exact NP. }
  cbn [rev app] in E. exists m', o. split; [exact R|]. destruct E as [(-> & NN & ptrs & t1 & t2 & T & C1 & F & l & ->)|(-> & NN & C)].
  - split; [split; [intros _; exact NN|reflexivity]|]. split; [|intros H; destruct H; reflexivity]. intros _.
    exists t1, ptrs, (map EDestroy l). split; [exact T|]. split; [exact C1|]. split; [apply calls_destroys|]. split; [|exact F].
    intros a. apply constructed_destroys.
  - split; [|split; [discriminate|intros _; exact C]]. split; [discriminate|]. intros NN2. exfalso.
    apply Exists_exists in NN as (p & IP & NP'). rewrite Forall_forall in NN2. exact (NN2 p IP NP').
Qed.
Print Assumptions c44_call.


(** What is moved from, or copied from a pointer which is given away, is destroyed once; what is copied from a borrowed pointer is left alone. *)
Theorem c44_sources : forall ps m m' o a, args_ok ps m -> no_ctor_panics ps -> run_wrapper ps [] m = (m', o) ->
  (In (as_mov a) ps \/ In (as_copy (Ptr a true)) ps -> destroyed a (m_trace m') = 1) /\
  (In (as_copy (Ptr a false)) ps \/ In (VRef a) ps \/ In (VRefBox a) ps \/ In (VRefUnique (Some a)) ps ->
     destroyed a (m_trace m') = 0 /\ m_cells m' a = CLive).
Proof.
  intros ps m m' o a AO NP R. destruct (c44_exactly_once ps m AO NP) as (m1 & o1 & R1 & _ & O & _ & N). rewrite R in R1. injection R1 as <- <-. split.
  - intros H. apply O. apply in_flat_map. destruct H as [H|H]; (eexists; split; [exact H|left; reflexivity]).
  - intros H. assert (B : In a (flat_map borrowed ps)).
    { apply in_flat_map. destruct H as [H|[H|[H|H]]]; (eexists; split; [exact H|left; reflexivity]). }
    destruct (ao_live _ _ AO a (in_or_app _ _ _ (or_intror B))) as [L C].
    destruct (N a L) as (D & _ & E); [intros K; exact (ao_apart _ _ AO a K B)|]. rewrite E. auto.
Qed.
Print Assumptions c44_sources.

(** A constructor which panics: the handler already says that its space has an object, and dropping the handler destroys an object which was never
    constructed. This holds for every such argument, whatever comes before and after it. *)
Theorem c44_constructor_panic_refuted : forall qs c rest m, args_ok (qs ++ VNew c :: rest) m -> no_ctor_panics qs -> c_panics c = true ->
  ~ In (VRefUnique None) qs -> snd (run_wrapper (qs ++ VNew c :: rest) [] m) = Undefined.
Proof.
  intros qs c rest m AO NP PA NR.
  assert (B : forall a, In a (flat_map borrowed (qs ++ VNew c :: rest)) -> a < m_next m /\ m_cells m a = CLive /\ ~ In a (flat_map owned (qs ++ VNew c :: rest))).
  { intros a J. destruct (ao_live _ _ AO a (in_or_app _ _ _ (or_intror J))) as [X Y]. split; [exact X|]. split; [exact Y|].
    intros K. exact (ao_apart _ _ AO a K J). }
  pose proof (start_ok _ _ AO) as A. clear AO. revert A B. generalize (flat_map owned (qs ++ VNew c :: rest)) at 1 3 as own. intros own A B.
  assert (G : forall qs hs m1, account m own m1 (flat_map held hs ++ flat_map owned (qs ++ VNew c :: rest)) -> no_ctor_panics qs -> ~ In (VRefUnique None) qs ->
     (forall a, In a (flat_map borrowed (qs ++ VNew c :: rest)) -> a < m_next m /\ m_cells m a = CLive /\ ~ In a own) ->
     snd (run_wrapper (qs ++ VNew c :: rest) hs m1) = Undefined).
  { clear A B NP NR qs. induction qs as [|p qs IH]; intros hs m1 A NP NR B; cbn [app run_wrapper].
    - cbn [app flat_map owned borrowed] in A, B.
      assert (A0 : account m own m1 (c_owns c ++ (flat_map held hs ++ flat_map owned rest))).
      { eapply account_perm; [|exact A]. rewrite !app_assoc. apply Permutation_app_tail, Permutation_app_comm. }
      destruct (account_default _ _ _ _ A0) as (A1 & U1 & N1 & T1). destruct (handler_default m1) as [m2 h] eqn:HD. cbn [fst] in *.
      assert (HS : h_slot h = m_next m1) by (injection HD as _ <-; reflexivity).
      cbn [populate assign_uninit]. set (m3 := set_cell m2 (h_slot h) CUninit []).
      assert (A3 : account m own m3 (c_owns c ++ (flat_map held hs ++ flat_map owned rest))). { apply account_uninit; [exact A1|]. rewrite HS. exact U1. }
      unfold run_new. rewrite seq_use.
      2:{ intros b J. destruct (existsb (Nat.eqb b) (c_owns c)) eqn:X.
          - apply existsb_exists in X as (y & IY & X). apply Nat.eqb_eq in X as ->. apply (account_live _ _ _ _ _ A3). apply in_or_app. left. exact IY.
          - destruct (B b) as (L & LV & NO). { apply in_or_app. left. apply filter_In. rewrite X. split; [exact J|reflexivity]. }
            destruct (ac_rest _ _ _ _ A3 b L NO) as (_ & _ & ->). exact LV. }
      rewrite PA. destruct (account_destroys _ _ _ _ _ A3) as (m4 & D & A4 & _ & _). rewrite D. cbn [drop_handlers drop_handler h_space h_slot].
      unfold destroy. destruct (m_cells m4 (h_slot h)) eqn:CL; try reflexivity. exfalso.
      (* destroying what the constructor owns does not touch the space *)
      assert (NT : forall l mm mm', seq destroy l mm = (mm', Done tt) -> m_cells mm' (h_slot h) = CLive -> m_cells mm (h_slot h) = CLive).
      { clear. induction l as [|a l IHl]; cbn [seq]; intros mm mm' E L; [injection E as ->; exact L|].
        unfold destroy at 1 in E. destruct (m_cells mm a) eqn:CA; try discriminate. apply IHl in E; [|exact L].
        cbn in E. destruct (Nat.eqb_spec (h_slot h) a); [discriminate|exact E]. }
      apply (NT _ _ _ D) in CL. unfold m3 in CL. cbn in CL. rewrite Nat.eqb_refl in CL. discriminate.
    - cbn [app flat_map] in A, B.
      pose proof (populate_ok m own m1 (flat_map held hs ++ flat_map owned (qs ++ VNew c :: rest)) p) as PO.
      destruct (handler_default m1) as [m2 h].
      destruct PO as (m3 & h2 & r & E & A2 & C2 & N2 & [[-> S2]|(-> & -> & H2)]).
      { eapply account_perm; [|exact A]. rewrite !app_assoc. apply Permutation_app_tail, Permutation_app_comm. }
      { intros a J. apply B. apply in_or_app. left. exact J. }
      { intros c' ->. apply NP. left. reflexivity. }
      + rewrite E. apply IH.
        * cbn [flat_map]. rewrite <- app_assoc. exact A2.
        * intros c' J. apply NP. right. exact J.
        * intros J. apply NR. right. exact J.
        * intros a J. apply B. apply in_or_app. right. exact J.
      + destruct NR. left. reflexivity. }
  apply G; assumption.
Qed.
Print Assumptions c44_constructor_panic_refuted.

(** The contract of [populate] to be called once is needed: called twice, the first object is lost. *)
Theorem c44_populate_twice_leaks : forall src m, m_cells m src = CLive -> src < m_next m -> m_trace m = [] ->
  exists m1 h m2 h2 m3 h3 m4, handler_default m = (m1, h) /\ populate (VRef src) h m1 = (m2, h2, Done tt) /\ populate (VRef src) h2 m2 = (m3, h3, Done tt) /\
    drop_handler h3 m3 = (m4, Done tt) /\ constructed (h_slot h) (m_trace m4) = 2 /\ destroyed (h_slot h) (m_trace m4) = 1.
Proof.
  intros src m L LT T. eexists. eexists. eexists. eexists. eexists. eexists. eexists. split; [reflexivity|].
  assert (E1 : Nat.eqb src (m_next m) = false) by (apply Nat.eqb_neq; lia).
  split; [|split; [|split]].
  - unfold populate, populate_ref, run_new, use, construct. cbn. unfold use, construct. cbn. rewrite E1, L. cbn. rewrite Nat.eqb_refl. reflexivity.
  - unfold populate, populate_ref, run_new, use, construct. cbn. unfold use, construct. cbn. rewrite E1, L. cbn. rewrite Nat.eqb_refl. reflexivity.
  - unfold drop_handler, destroy. cbn. rewrite Nat.eqb_refl. reflexivity.
  - cbn. rewrite T. cbn. rewrite Nat.eqb_refl. cbn. auto.
Qed.
Print Assumptions c44_populate_twice_leaks.

(** Arguments of every kind. Objects 0 to 8 exist. *)
Definition all_kinds : list param :=
  [VRef 0; VUnique (Some 1); VBox 2; VRefUnique (Some 3); VRefBox 4; as_copy (Ptr 0 false); as_copy (Ptr 5 true); as_mov 6; RUnique (Some 7); RBox 8].
Definition mem9 : mem := Mem (fun a => if Nat.ltb a 9 then CLive else CUninit) 9 [].
Example c44_all_kinds : args_ok all_kinds mem9 /\ no_ctor_panics all_kinds /\ Forall (fun p => ~ is_null p) all_kinds.
Proof.
  split; [constructor|split].
  - intros a H. cbn in H. repeat (destruct H as [<-|H]; [split; [cbn; lia|reflexivity]|]). contradiction.
  - cbn. repeat (constructor; [cbn; lia|]). constructor.
  - intros a H K. cbn in H, K. lia.
  - reflexivity.
  - intros c H. cbn in H. repeat (destruct H as [H|H]; [try discriminate H; injection H as <-; reflexivity|]). contradiction.
  - repeat constructor; cbn; auto.
Qed.
Example c44_all_kinds_run : m_trace (fst (run_wrapper all_kinds [] mem9)) <> [] /\ snd (run_wrapper all_kinds [] mem9) = Done tt.
Proof. vm_compute. split; [discriminate|reflexivity]. Qed.
(** A null pointer after other arguments. *)
Example c44_null_run : args_ok [VRef 0; VRefUnique None; VBox 2] mem9 /\ snd (run_wrapper [VRef 0; VRefUnique None; VBox 2] [] mem9) = Panicked /\
  m_trace (fst (run_wrapper [VRef 0; VRefUnique None; VBox 2] [] mem9)) = [EConstruct 9; EDestroy 9; EDestroy 2].
Proof.
  split; [|split; reflexivity]. constructor.
  - intros a H. cbn in H. repeat (destruct H as [<-|H]; [split; [cbn; lia|reflexivity]|]). contradiction.
  - cbn. repeat (constructor; [cbn; lia|]). constructor.
  - intros a H K. cbn in H, K. lia.
  - reflexivity.
Qed.
(** A constructor made from C++ code that panics. *)
Example c44_panic_run : args_ok [VRef 0; as_new (Ctor [1] [2] true); VBox 3] mem9 /\ snd (run_wrapper [VRef 0; as_new (Ctor [1] [2] true); VBox 3] [] mem9) = Undefined.
Proof.
  split; [|reflexivity]. constructor.
  - intros a H. cbn in H. repeat (destruct H as [<-|H]; [split; [cbn; lia|reflexivity]|]). contradiction.
  - cbn. repeat (constructor; [cbn; lia|]). constructor.
  - intros a H K. cbn in H, K. lia.
  - reflexivity.
Qed.
