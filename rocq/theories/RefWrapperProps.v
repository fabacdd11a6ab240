(** Theorems about the C++ reference wrappers: C45. *)
From Verif Require Import Base RefWrapperModel.
From Coq Require Import Lia.

(** * Specification *)

(** The variable an operation takes its result from. *)
Definition source (o : op) : option nat :=
  match o with
  | NewBox | NewUnique | NullUnique | PinNew | AssignDeref _ _ => None
  | PinFromBox i | PinFromPinnedBox i | UniquePinNew i | Extract i | Move i | AsPtr i | AsMutPtr i | AsCppRef i | AsCppMutRef i | Deref i
  | Clone i | ConstCast i | IntoRef i | LifetimeCast i | RefFromPtr i | LtRefFromPtr i | MutRefFromPtr i | MutLtRefFromPtr i => Some i
  end.
(** For each variable, the variable it comes from in the end, which some operation made from nothing. *)
Definition lineage (ops : list op) : list nat :=
  fold_left (fun l o => l ++ [match source o with None => length l | Some j => nth j l 0 end]) ops [].
Definition makes (o : op) : bool := match o with NewBox | NewUnique | PinNew => true | _ => false end.
(** The object made by the operation number [r]: objects are numbered as they are made. *)
Definition object (ops : list op) (r : nat) : ptr :=
  match nth_error ops r with
  | Some o => if makes o then Some (length (filter makes (firstn r ops))) else None
  | None => None
  end.
(** All the pointers that a value holds. *)
Definition targets (v : value) : list ptr :=
  match v with
  | XPtr p | XRef p | XLtRef p | XMutRef p | XMutLtRef p => [p]
  | XPin c r => [Some c; r]
  | XUniquePin u r => [u; r]
  | XUnique u => [u]
  | XBox a => [Some a]
  | XMoved | XUnit => []
  end.
Definition no_assignment (ops : list op) : Prop := forall i j, ~ In (AssignDeref i j) ops.

(** * Lemmas *)

Lemma lineage_snoc ops o : lineage (ops ++ [o]) = lineage ops ++ [match source o with None => length (lineage ops) | Some j => nth j (lineage ops) 0 end].
Proof. unfold lineage. rewrite fold_left_app. reflexivity. Qed.
Lemma lineage_length ops : length (lineage ops) = length ops.
Proof. induction ops as [|o ops IH] using rev_ind; [reflexivity|]. rewrite lineage_snoc, !app_length, IH. reflexivity. Qed.
Lemma object_old ops o r : r < length ops -> object (ops ++ [o]) r = object ops r.
Proof.
  intros L. unfold object. rewrite nth_error_app1 by exact L. rewrite firstn_app. replace (r - length ops) with 0 by lia. cbn. rewrite app_nil_r. reflexivity.
Qed.
Lemma object_new ops o : object (ops ++ [o]) (length ops) = if makes o then Some (length (filter makes ops)) else None.
Proof.
  unfold object. rewrite nth_error_app2 by lia. rewrite Nat.sub_diag. cbn. rewrite firstn_app, Nat.sub_diag. cbn. rewrite app_nil_r, firstn_all. reflexivity.
Qed.
Lemma run_snoc ops : forall s o, run s (ops ++ [o]) = match run s ops with Ok s1 => exec s1 o | r => r end.
Proof. induction ops as [|p ops IH]; intros s o; cbn; [destruct (exec s o); reflexivity|]. destruct (exec s p); [apply IH|reflexivity|reflexivity]. Qed.
Lemma set_nth_length l : forall i v, length (set_nth l i v) = length l.
Proof. induction l as [|x l IH]; intros [|i] v; cbn; auto. Qed.
Lemma set_nth_other l : forall i j v, i <> j -> nth j (set_nth l i v) XUnit = nth j l XUnit.
Proof. induction l as [|x l IH]; intros [|i] [|j] v N; cbn; auto; try congruence. Qed.
Lemma set_nth_same l : forall i v, i < length l -> nth i (set_nth l i v) XUnit = v.
Proof. induction l as [|x l IH]; intros [|i] v L; cbn in *; auto; try lia. apply IH. lia. Qed.

(** The state after a program. *)
Record good (ops : list op) (s : state) : Prop := {
  gd_length : length (vars s) = length ops;
  gd_next : next s = length (filter makes ops);
  gd_roots : forall i, i < length ops -> nth i (lineage ops) 0 < length ops;
  gd_same : forall i q, In q (targets (get s i)) -> i < length ops /\ q = object ops (nth i (lineage ops) 0)
}.

(** What an operation without assignment does: the variables stay or are moved away, the new one has no other pointers than the
    one it comes from. *)
Lemma exec_shape s o s' : exec s o = Ok s' -> (forall i j, o <> AssignDeref i j) ->
  exists old v, vars s' = old ++ [v] /\ length old = length (vars s) /\ (forall i, nth i old XUnit = get s i \/ nth i old XUnit = XMoved) /\
    next s' = next s + (if makes o then 1 else 0) /\
    match source o with
    | Some j => j < length (vars s) /\ (forall q, In q (targets v) -> In q (targets (get s j)))
    | None => forall q, In q (targets v) -> q = if makes o then Some (next s) else None
    end.
Proof.
  intros H NA.
  assert (IN : forall i, get s i <> XUnit -> i < length (vars s)).
  { intros i N. destruct (Nat.lt_ge_cases i (length (vars s))) as [L|L]; [exact L|]. destruct N. unfold get. apply nth_overflow. exact L. }
  assert (PU : forall v, push s v = Ok s' -> exists old v', vars s' = old ++ [v'] /\ length old = length (vars s) /\
     (forall i, nth i old XUnit = get s i \/ nth i old XUnit = XMoved) /\ next s' = next s + 0 /\ v' = v).
  { intros v E. injection E as <-. exists (vars s), v. cbn. repeat split; auto. }
  assert (CO : forall i v, consume s i v = Ok s' -> exists old v', vars s' = old ++ [v'] /\ length old = length (vars s) /\
     (forall i, nth i old XUnit = get s i \/ nth i old XUnit = XMoved) /\ next s' = next s + 0 /\ v' = v).
  { intros i v E. injection E as <-. exists (set_nth (vars s) i XMoved), v. cbn. rewrite set_nth_length. repeat split; auto.
    intros j. destruct (Nat.eq_dec i j) as [<-|N]; [|left; apply set_nth_other; exact N].
    destruct (Nat.lt_ge_cases i (length (vars s))) as [L|L]; [right; apply set_nth_same; exact L|].
    left. unfold get. rewrite !nth_overflow; [reflexivity|exact L|rewrite set_nth_length; exact L]. }
  assert (AL : forall f, alloc s f = Ok s' -> exists old v', vars s' = old ++ [v'] /\ length old = length (vars s) /\
     (forall i, nth i old XUnit = get s i \/ nth i old XUnit = XMoved) /\ next s' = next s + 1 /\ v' = f (next s)).
  { intros f E. injection E as <-. exists (vars s), (f (next s)). cbn. repeat split; auto. lia. }
  assert (PP : forall (r : ptr + result) f, push_ptr s r f = Ok s' -> (forall e, r = inr e -> e = Panic \/ e = Rejected) -> exists p, r = inl p /\ push s (f p) = Ok s').
  { intros [p|e] f E R; [eauto|]. destruct (R e eq_refl) as [->| ->]; discriminate. }
  assert (NE1 : forall v e, as_ptr v = inr e -> e = Panic \/ e = Rejected). { intros [| | | | | |[]| | | |] e E; try discriminate E; injection E as E; subst e; auto. }
  assert (NE2 : forall v e, as_mut_ptr v = inr e -> e = Panic \/ e = Rejected). { intros [] e E; try discriminate E; injection E as E; subst e; auto. }
  assert (NE3 : forall v e, as_cpp_ref v = inr e -> e = Panic \/ e = Rejected). { intros [| | | | | |[]| | | |] e E; try discriminate E; injection E as E; subst e; auto. }
  assert (NE4 : forall v e, as_cpp_mut_ref v = inr e -> e = Panic \/ e = Rejected). { intros [] e E; try discriminate E; injection E as E; subst e; auto. }
  destruct o as [| | | |i|i|i|i|i|i|i|i|i|i|i|i|i|i|i|i|i|i|i j]; cbn [exec source makes] in *.
  1,2,4: apply AL in H as (old & v & A & B & C & D & ->); exists old; eexists; repeat split; eauto; cbn; intuition.
  1: apply PU in H as (old & v & A & B & C & D & ->); exists old; eexists; repeat split; eauto; cbn; intuition.
  all: try (destruct (NA i j); reflexivity).
  all: try (apply PP in H; [|eauto]; destruct H as (p & G & H)).
  all: try (destruct (get s i) eqn:GI; try discriminate).
  all: try (cbn in G; try discriminate).
  all: try match type of H with (match deref ?v with _ => _ end) = _ => cbn [deref] in H; try discriminate end.
  all: try match type of H with from_raw _ _ _ = _ => cbn [from_raw] in H; try discriminate end.
  all: try (apply PU in H as (old & v & A & B & C & D & ->)); try (apply CO in H as (old & v & A & B & C & D & ->)).
  all: exists old; eexists; repeat split; eauto; try (apply IN; rewrite GI; discriminate); cbn.
  all: try (destruct u; try discriminate).
  all: try (injection G as <-). all: unfold addr_of; intuition.
Qed.

Lemma run_good ops : forall s, no_assignment ops -> run start ops = Ok s -> good ops s.
Proof.
  induction ops as [|o ops IH] using rev_ind; intros s NA R.
  - injection R as <-. constructor; cbn; auto; try lia. intros i q H. unfold get in H. cbn in H. destruct i; contradiction.
  - rewrite run_snoc in R. destruct (run start ops) as [s1| |] eqn:R1; try discriminate.
    assert (G : good ops s1). { apply IH; [|reflexivity]. intros i j J. apply (NA i j). apply in_or_app. left. exact J. }
    destruct G as [GL GN GR GS].
    destruct (exec_shape _ _ _ R) as (old & v & V & L & OLD & NX & SRC).
    { intros i j ->. apply (NA i j). apply in_or_app. right. left. reflexivity. }
    assert (LL : length (lineage ops) = length ops) by apply lineage_length.
    assert (LO : length old = length ops) by congruence.
    constructor.
    + rewrite V, !app_length, LO. reflexivity.
    + rewrite NX, GN, filter_app, app_length. cbn. destruct (makes o); reflexivity.
    + intros i H. rewrite app_length in *. cbn in H |- *. rewrite lineage_snoc.
      destruct (Nat.lt_ge_cases i (length ops)) as [I|I].
      * rewrite app_nth1 by lia. specialize (GR i I). lia.
      * rewrite app_nth2 by lia. replace (i - length (lineage ops)) with 0 by lia. cbn. destruct (source o) as [j|]; [|lia].
        destruct SRC as [SJ _]. rewrite GL in SJ. specialize (GR j SJ). lia.
    + intros i q H. unfold get in H. rewrite V in H. rewrite app_length, lineage_snoc. cbn [length].
      destruct (Nat.lt_ge_cases i (length ops)) as [I|I].
      * rewrite app_nth1 in H by lia. split; [lia|]. rewrite app_nth1 by lia. rewrite object_old by (apply GR; exact I).
        destruct (OLD i) as [E|E]; rewrite E in H; [|contradiction]. apply GS. exact H.
      * rewrite app_nth2 in H by lia. destruct (i - length old) as [|k] eqn:K; [|destruct k; contradiction]. cbn in H.
        assert (i = length ops) as -> by lia. split; [lia|]. rewrite app_nth2 by lia. rewrite LL, Nat.sub_diag. cbn [nth].
        destruct (source o) as [j|] eqn:SO.
        -- destruct SRC as [SJ SQ]. rewrite GL in SJ. rewrite object_old by (apply GR; exact SJ). apply GS. apply SQ. exact H.
        -- rewrite object_new, <- GN. apply SRC. exact H.
Qed.

(** * Theorems *)

(** Whatever conversions and moves a value has gone through, all its pointers are to the object it was
    made for (to no object, if it was made from a null pointer). *)
Theorem c45_same_object : forall ops s i q, no_assignment ops -> run start ops = Ok s -> In q (targets (get s i)) ->
  q = object ops (nth i (lineage ops) 0).
Proof. intros ops s i q NA R H. apply (gd_same _ _ (run_good _ _ NA R)) in H. apply H. Qed.
Print Assumptions c45_same_object.

(** Values made for different objects have different pointers. *)
Theorem c45_different_objects : forall ops s i j p q, no_assignment ops -> run start ops = Ok s ->
  In (Some p) (targets (get s i)) -> In (Some q) (targets (get s j)) -> (p = q <-> nth i (lineage ops) 0 = nth j (lineage ops) 0).
Proof.
  intros ops s i j p q NA R HP HQ. pose proof (run_good _ _ NA R) as G.
  apply (gd_same _ _ G) in HP as [LP HP], HQ as [LQ HQ]. apply (gd_roots _ _ G) in LP, LQ.
  revert LP LQ HP HQ. generalize (nth i (lineage ops) 0) as a, (nth j (lineage ops) 0) as b. intros a b LA LB HA HB.
  split; [|intros ->; congruence]. intros ->. rewrite HA in HB. clear - HA HB LA LB. unfold object in *.
  destruct (nth_error ops a) as [oa|] eqn:EA; [|congruence]. destruct (nth_error ops b) as [ob|] eqn:EB; [|congruence].
  destruct (makes oa) eqn:MA; [|congruence]. destruct (makes ob) eqn:MB; [|congruence]. injection HB as E.
  assert (ST : forall x y ox, x < y -> nth_error ops x = Some ox -> makes ox = true ->
     length (filter makes (firstn x ops)) < length (filter makes (firstn y ops))).
  { clear. induction ops as [|o ops IH]; intros x y ox L EX M; [destruct x; discriminate|]. destruct y as [|y]; [lia|]. destruct x as [|x]; cbn in *.
    - injection EX as ->. rewrite M. cbn. lia.
    - specialize (IH x y ox ltac:(lia) EX M). destruct (makes o); cbn; lia. }
  destruct (Nat.lt_trichotomy a b) as [H|[H|H]]; [pose proof (ST _ _ _ H EA MA); lia|exact H|pose proof (ST _ _ _ H EB MB); lia].
Qed.
Print Assumptions c45_different_objects.

(** The object a value owns. *)
Definition owner_of (v : value) : ptr :=
  match v with
  | XPin c _ => Some c
  | XUniquePin u _ | XUnique u => u
  | XBox a => Some a
  | _ => None
  end.
Definition holds (a : addr) (v : value) : bool := match owner_of v with Some b => Nat.eqb b a | None => false end.
Definition owners (a : addr) (l : list value) : nat := length (filter (holds a) l).
Definition one (b : bool) : nat := if b then 1 else 0.
Lemma owners_app a l m : owners a (l ++ m) = owners a l + owners a m.
Proof. unfold owners. rewrite filter_app, app_length. reflexivity. Qed.
Lemma owners_one a v : owners a [v] = one (holds a v).
Proof. unfold owners. cbn. destruct (holds a v); reflexivity. Qed.
Lemma owners_set a l : forall i v, i < length l -> owners a (set_nth l i v) + one (holds a (nth i l XUnit)) = owners a l + one (holds a v).
Proof.
  induction l as [|x l IH]; intros [|i] v L; cbn [length set_nth nth] in *; try lia.
  - change (v :: l) with ([v] ++ l). change (x :: l) with ([x] ++ l). rewrite !owners_app, !owners_one. lia.
  - change (x :: set_nth l i v) with ([x] ++ set_nth l i v). change (x :: l) with ([x] ++ l). rewrite !owners_app. specialize (IH i v). lia.
Qed.
Lemma get_real s i : get s i <> XUnit -> i < length (vars s).
Proof. intros N. destruct (Nat.lt_ge_cases i (length (vars s))) as [L|G]; [exact L|]. destruct N. apply nth_overflow. exact G. Qed.
Lemma exec_owners s o s1 a : exec s o = Ok s1 -> next s <= next s1 /\ owners a (vars s1) = owners a (vars s) + (if Nat.leb (next s) a then one (Nat.ltb a (next s1)) else 0).
Proof.
  assert (P : forall v, holds a v = false -> push s v = Ok s1 -> next s <= next s1 /\ owners a (vars s1) = owners a (vars s) + (if Nat.leb (next s) a then one (Nat.ltb a (next s1)) else 0)).
  { intros v H E. injection E as <-. cbn [next vars]. split; [lia|]. rewrite owners_app, owners_one, H. destruct (Nat.leb_spec (next s) a) as [L|L]; [|reflexivity].
    destruct (Nat.ltb_spec a (next s)); [lia|reflexivity]. }
  assert (C : forall i w v, get s i = w -> w <> XUnit -> holds a v = holds a w -> consume s i v = Ok s1 -> next s <= next s1 /\ owners a (vars s1) = owners a (vars s) + (if Nat.leb (next s) a then one (Nat.ltb a (next s1)) else 0)).
  { intros i w v G NU H E. injection E as <-. cbn [next vars]. split; [lia|]. rewrite owners_app, owners_one.
    pose proof (owners_set a (vars s) i XMoved) as O. unfold get in G. rewrite G in O. rewrite H.
    assert (L : i < length (vars s)) by (apply get_real; unfold get; congruence). specialize (O L). cbn [holds owner_of one] in O.
    destruct (Nat.leb_spec (next s) a); [|lia]. destruct (Nat.ltb_spec a (next s)); cbn [one]; lia. }
  assert (A : forall v, (forall b, holds a (v b) = Nat.eqb b a) -> alloc s v = Ok s1 -> next s <= next s1 /\ owners a (vars s1) = owners a (vars s) + (if Nat.leb (next s) a then one (Nat.ltb a (next s1)) else 0)).
  { intros v H E. injection E as <-. cbn [next vars]. split; [lia|]. rewrite owners_app, owners_one, H.
    destruct (Nat.leb_spec (next s) a), (Nat.ltb_spec a (S (next s))), (Nat.eqb_spec (next s) a); cbn [one]; lia. }
  destruct o; cbn [exec]; unfold from_raw, push_ptr; intros E;
    try (eapply A; [|exact E]; reflexivity); try (eapply P; [|exact E]; reflexivity).
  all: try (destruct (get s i) eqn:G; try discriminate E; try (eapply C; [exact G|discriminate| |exact E]; reflexivity); try (eapply P; [|exact E]; reflexivity)).
  all: try (unfold as_ptr, as_mut_ptr, as_cpp_ref, as_cpp_mut_ref, addr_of in E; repeat match type of E with context [match ?x with _ => _ end] => destruct x; try discriminate E end; eapply P; [|exact E]; reflexivity).
  all: try (cbn in E; try discriminate E; eapply P; [|exact E]; reflexivity).
  all: try (cbn in E; repeat match type of E with context [match ?x with _ => _ end] => destruct x; try discriminate E end; eapply P; [|exact E]; reflexivity).
  all: try (destruct u; cbn in E; [eapply P; [|exact E]; reflexivity|discriminate E]).
  destruct (get s j) eqn:GJ; try discriminate E. injection E as <-. cbn [next vars]. split; [lia|]. rewrite owners_app, owners_one.
  pose proof (owners_set a (vars s) i (XPin contents p)) as O. unfold get in G. rewrite G in O.
  assert (L : i < length (vars s)) by (apply get_real; unfold get; congruence). specialize (O L).
  change (holds a (XPin contents r)) with (holds a (XPin contents p)) in O. change (holds a XUnit) with false. cbn [one] in *.
  destruct (Nat.leb_spec (next s) a); [|lia]. destruct (Nat.ltb_spec a (next s)); cbn [one]; lia.
Qed.
Lemma exec_next s o s1 : exec s o = Ok s1 -> next s1 = if makes o then S (next s) else next s.
Proof.
  destruct o; cbn [exec makes]; unfold from_raw, push_ptr; intros E; try (injection E as <-; reflexivity).
  all: destruct (get s i) eqn:G; cbn in E; try discriminate E; try (injection E as <-; reflexivity).
  all: try (destruct u; cbn in E; try discriminate E; injection E as <-; reflexivity).
  destruct (get s j); try discriminate E; injection E as <-; reflexivity.
Qed.
Lemma filter_unique {A} (f : A -> bool) (d : A) l : length (filter f l) = 1 -> f d = false -> exists i, f (nth i l d) = true /\ forall j, f (nth j l d) = true -> j = i.
Proof.
  intros H D. induction l as [|x l IH]; [discriminate|]. cbn [filter] in H. destruct (f x) eqn:F.
  - exists 0. split; [exact F|]. intros [|j] J; [reflexivity|]. exfalso. cbn in H, J. injection H as H.
    assert (I : In (nth j l d) (filter f l)).
    { apply filter_In. split; [|exact J]. destruct (nth_in_or_default j l d) as [K|K]; [exact K|congruence]. }
    destruct (filter f l); [destruct I|discriminate].
  - destruct (IH H) as (i & E & U). exists (S i). split; [exact E|]. intros [|j] J; [cbn in J; congruence|]. f_equal. apply U. exact J.
Qed.

(** At any time each object that was made has exactly one owner among the variables: no operation makes a second box or pin of it, or
    loses it. *)
Theorem c45_one_owner : forall ops s a, run start ops = Ok s -> a < length (filter makes ops) ->
  exists i, owner_of (get s i) = Some a /\ forall j, owner_of (get s j) = Some a -> j = i.
Proof.
  intros ops s a R L.
  assert (G : next s = length (filter makes ops) /\ owners a (vars s) = one (Nat.ltb a (next s))).
  { clear L. revert s R. induction ops as [|o ops IH] using rev_ind; intros s R; [injection R as <-; auto|].
    rewrite run_snoc in R. destruct (run start ops) as [s0| |] eqn:R0; try discriminate. destruct (IH s0 eq_refl) as [N O].
    destruct (exec_owners s0 o s a R) as [LE E]. split.
    - rewrite filter_app, app_length, <- N, (exec_next _ _ _ R). cbn [filter length]. destruct (makes o); cbn [length]; lia.
    - rewrite E, O. destruct (Nat.leb_spec (next s0) a), (Nat.ltb_spec a (next s0)); cbn [one]; try lia. destruct (Nat.ltb_spec a (next s)); cbn [one]; lia. }
  destruct G as [N O]. rewrite <- N in L. apply Nat.ltb_lt in L. rewrite L in O. cbn [one] in O.
  destruct (filter_unique (holds a) XUnit (vars s) O eq_refl) as (i & E & U).
  assert (HO : forall v, holds a v = true <-> owner_of v = Some a).
  { intros v. unfold holds. destruct (owner_of v) as [b|]; [|split; discriminate]. rewrite Nat.eqb_eq. split; [intros ->; reflexivity|intros K; injection K as ->; reflexivity]. }
  exists i. unfold get. split; [apply HO; exact E|]. intros j J. apply U. apply HO. exact J.
Qed.
Print Assumptions c45_one_owner.

(** [DerefMut] lets safe code put another reference into a pin: then the pin stands for two objects. *)
Theorem c45_assignment_refuted : exists ops s i p q, run start ops = Ok s /\ In p (targets (get s i)) /\ In q (targets (get s i)) /\ p <> q /\
  (exists s1, run start (ops ++ [AsCppRef i; Deref i]) = Ok s1 /\
     get s1 (length ops) = XRef p /\ get s1 (S (length ops)) = XMutRef q).
Proof.
  exists [PinNew; PinNew; AsCppMutRef 1; AssignDeref 0 2]. eexists. exists 0, (Some 0), (Some 1). split; [reflexivity|].
  split; [left; reflexivity|]. split; [right; left; reflexivity|]. split; [discriminate|]. eexists. split; [reflexivity|]. split; reflexivity.
Qed.
Print Assumptions c45_assignment_refuted.

(** Safe code gets a C++ reference to nothing from a null [UniquePtr], through [as_cpp_mut_ref] and [deref] of a
    [CppUniquePtrPin] and through [as_cpp_ref] of the [UniquePtr]; only [as_cpp_ref] of the pin checks it. *)
Theorem c45_null_reference_refuted :
  (exists ops s i, no_assignment ops /\ run start ops = Ok s /\ get s i = XMutRef None) /\
  (exists ops s i, no_assignment ops /\ run start ops = Ok s /\ get s i = XRef None) /\
  (forall s i r, get s i = XUniquePin None r -> exec s (AsCppRef i) = Panic).
Proof.
  split; [|split].
  - exists [NullUnique; UniquePinNew 0; AsCppMutRef 1]. eexists. exists 2. split; [intros i j H; cbn in H; intuition discriminate|]. split; reflexivity.
  - exists [NullUnique; AsCppRef 0]. eexists. exists 1. split; [intros i j H; cbn in H; intuition discriminate|]. split; reflexivity.
  - intros s i r H. cbn. rewrite H. reflexivity.
Qed.
Print Assumptions c45_null_reference_refuted.

(** A pin which moves after a reference was taken, and the reference goes through all conversions. *)
Example c45_conversions : exists s,
  run start [NewBox; PinNew; PinFromBox 0; AsCppRef 2; Move 2; Deref 4; ConstCast 3; IntoRef 6; AsPtr 7; LtRefFromPtr 8; LifetimeCast 9; Extract 4] = Ok s /\
  get s 10 = XRef (Some 0) /\ get s 11 = XBox 0 /\
  nth 10 (lineage [NewBox; PinNew; PinFromBox 0; AsCppRef 2; Move 2; Deref 4; ConstCast 3; IntoRef 6; AsPtr 7; LtRefFromPtr 8; LifetimeCast 9; Extract 4]) 0 = 0.
Proof. eexists. split; [reflexivity|]. repeat split. Qed.
