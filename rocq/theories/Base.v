(** Shared vocabulary: qualified names, string helpers, decimal numbers,
    finite-set membership. *)
From Coq Require Export String Ascii Bool Arith Lia Permutation List.
From Coq Require Import Decimal DecimalNat DecimalString.
Export ListNotations.
Open Scope string_scope.
Open Scope nat_scope.
Open Scope list_scope.
Infix "+++" := String.append (at level 60, right associativity).

(** Outcome of code that may fail with an error value.
    Models Rust [Result]. *)
Inductive res (A E : Type) : Type :=
| Ok (a : A)
| Err (e : E).
Arguments Ok {A E} a.
Arguments Err {A E} e.

Definition is_ok {A E} (r : res A E) : bool :=
  match r with Ok _ => true | Err _ => false end.

(** engine/src/types.rs:28 [Namespace] (a vector of segments) and
    engine/src/types.rs:91 [QualifiedName] (namespace plus final item). *)
Record qname := QN { qn_ns : list string; qn_item : string }.

Definition qname_eq_dec (a b : qname) : {a = b} + {a <> b}.
Proof. decide equality; [apply string_dec | apply list_eq_dec; apply string_dec]. Defined.

Definition qn_eqb (a b : qname) : bool := if qname_eq_dec a b then true else false.

Lemma qn_eqb_eq a b : qn_eqb a b = true <-> a = b.
Proof. unfold qn_eqb; destruct (qname_eq_dec a b); split; congruence. Qed.
Lemma qn_eqb_neq a b : qn_eqb a b = false <-> a <> b.
Proof. unfold qn_eqb; destruct (qname_eq_dec a b); split; congruence. Qed.
Lemma qn_eqb_refl a : qn_eqb a a = true.
Proof. apply qn_eqb_eq; reflexivity. Qed.

(** [HashSet<QualifiedName>::contains] and friends over insertion-ordered lists. *)
Definition qmem (x : qname) (l : list qname) : bool := existsb (qn_eqb x) l.
Definition smem (x : string) (l : list string) : bool := existsb (String.eqb x) l.

Lemma qmem_In x l : qmem x l = true <-> In x l.
Proof.
  unfold qmem; rewrite existsb_exists; split.
  - intros [y [Hy He]]; apply qn_eqb_eq in He; subst; exact Hy.
  - intros H; exists x; split; [exact H | apply qn_eqb_refl].
Qed.
Lemma qmem_nIn x l : qmem x l = false <-> ~ In x l.
Proof. rewrite <- qmem_In; destruct (qmem x l); split; congruence. Qed.
Lemma smem_In x l : smem x l = true <-> In x l.
Proof.
  unfold smem; rewrite existsb_exists; split.
  - intros [y [Hy He]]; apply String.eqb_eq in He; subst; exact Hy.
  - intros H; exists x; split; [exact H | apply String.eqb_refl].
Qed.
Lemma smem_nIn x l : smem x l = false <-> ~ In x l.
Proof. rewrite <- smem_In; destruct (smem x l); split; congruence. Qed.

(** [HashSet::insert] on an insertion-ordered set. *)
Definition qinsert (x : qname) (l : list qname) : list qname :=
  if qmem x l then l else l ++ [x].
Lemma qinsert_In x y l : In y (qinsert x l) <-> y = x \/ In y l.
Proof.
  unfold qinsert; destruct (qmem x l) eqn:E.
  - apply qmem_In in E; split; [auto | intros [->|H]; auto].
  - rewrite in_app_iff; simpl; intuition.
Qed.
Definition sinsert (x : string) (l : list string) : list string :=
  if smem x l then l else l ++ [x].
Lemma sinsert_In x y l : In y (sinsert x l) <-> y = x \/ In y l.
Proof.
  unfold sinsert; destruct (smem x l) eqn:E.
  - apply smem_In in E; split; [auto | intros [->|H]; auto].
  - rewrite in_app_iff; simpl; intuition.
Qed.

(** Insertion-ordered maps with qualified-name / string keys. *)
Fixpoint qget {A} (k : qname) (m : list (qname * A)) : option A :=
  match m with
  | [] => None
  | (k', v) :: m' => if qn_eqb k k' then Some v else qget k m'
  end.
Fixpoint qset {A} (k : qname) (v : A) (m : list (qname * A)) : list (qname * A) :=
  match m with
  | [] => [(k, v)]
  | (k', v') :: m' => if qn_eqb k k' then (k, v) :: m' else (k', v') :: qset k v m'
  end.
Fixpoint qdel {A} (k : qname) (m : list (qname * A)) : list (qname * A) :=
  match m with
  | [] => []
  | (k', v') :: m' => if qn_eqb k k' then qdel k m' else (k', v') :: qdel k m'
  end.
Fixpoint sget {A} (k : string) (m : list (string * A)) : option A :=
  match m with
  | [] => None
  | (k', v) :: m' => if String.eqb k k' then Some v else sget k m'
  end.
Fixpoint sset {A} (k : string) (v : A) (m : list (string * A)) : list (string * A) :=
  match m with
  | [] => [(k, v)]
  | (k', v') :: m' => if String.eqb k k' then (k, v) :: m' else (k', v') :: sset k v m'
  end.

Lemma qget_qset_same {A} k (v : A) m : qget k (qset k v m) = Some v.
Proof.
  induction m as [|[k' v'] m IH]; simpl; [now rewrite qn_eqb_refl|].
  destruct (qn_eqb k k') eqn:E; simpl; [now rewrite qn_eqb_refl | now rewrite E].
Qed.
Lemma qget_qset_other {A} k k2 (v : A) m : k2 <> k -> qget k2 (qset k v m) = qget k2 m.
Proof.
  intros H; induction m as [|[k' v'] m IH]; simpl.
  - destruct (qn_eqb k2 k) eqn:E; [apply qn_eqb_eq in E; congruence | reflexivity].
  - destruct (qn_eqb k k') eqn:E; simpl.
    + apply qn_eqb_eq in E; subst k'.
      destruct (qn_eqb k2 k) eqn:E2; [apply qn_eqb_eq in E2; congruence | reflexivity].
    + destruct (qn_eqb k2 k') eqn:E2; [reflexivity | exact IH].
Qed.
Lemma qget_qdel_same {A} k (m : list (qname * A)) : qget k (qdel k m) = None.
Proof.
  induction m as [|[k' v'] m IH]; simpl; [reflexivity|].
  destruct (qn_eqb k k') eqn:E; simpl; [exact IH | now rewrite E].
Qed.
Lemma qget_qdel_other {A} k k2 (m : list (qname * A)) : k2 <> k -> qget k2 (qdel k m) = qget k2 m.
Proof.
  intros H; induction m as [|[k' v'] m IH]; simpl; [reflexivity|].
  destruct (qn_eqb k k') eqn:E; simpl.
  - apply qn_eqb_eq in E; subst k'.
    destruct (qn_eqb k2 k) eqn:E2; [apply qn_eqb_eq in E2; congruence | exact IH].
  - destruct (qn_eqb k2 k') eqn:E2; [reflexivity | exact IH].
Qed.
Lemma sget_sset_same {A} k (v : A) m : sget k (sset k v m) = Some v.
Proof.
  induction m as [|[k' v'] m IH]; simpl; [now rewrite String.eqb_refl|].
  destruct (String.eqb k k') eqn:E; simpl; [now rewrite String.eqb_refl | now rewrite E].
Qed.
Lemma sget_sset_other {A} k k2 (v : A) m : k2 <> k -> sget k2 (sset k v m) = sget k2 m.
Proof.
  intros H; induction m as [|[k' v'] m IH]; simpl.
  - destruct (String.eqb k2 k) eqn:E; [apply String.eqb_eq in E; congruence | reflexivity].
  - destruct (String.eqb k k') eqn:E; simpl.
    + apply String.eqb_eq in E; subst k'.
      destruct (String.eqb k2 k) eqn:E2; [apply String.eqb_eq in E2; congruence | reflexivity].
    + destruct (String.eqb k2 k') eqn:E2; [reflexivity | exact IH].
Qed.
Lemma qget_In {A} k (v : A) m : qget k m = Some v -> In (k, v) m.
Proof.
  induction m as [|[k' v'] m IH]; simpl; [discriminate|].
  destruct (qn_eqb k k') eqn:E.
  - apply qn_eqb_eq in E; intros H; inversion H; subst; auto.
  - auto.
Qed.
Lemma qget_None {A} k (m : list (qname * A)) : qget k m = None <-> ~ In k (map fst m).
Proof.
  induction m as [|[k' v'] m IH]; simpl; [intuition|].
  destruct (qn_eqb k k') eqn:E.
  - apply qn_eqb_eq in E; subst; split; [discriminate | intros H; elim H; auto].
  - apply qn_eqb_neq in E; rewrite IH; intuition.
Qed.
Lemma sget_In {A} k (v : A) m : sget k m = Some v -> In (k, v) m.
Proof.
  induction m as [|[k' v'] m IH]; simpl; [discriminate|].
  destruct (String.eqb k k') eqn:E.
  - apply String.eqb_eq in E; intros H; inversion H; subst; auto.
  - auto.
Qed.
Lemma sget_None {A} k (m : list (string * A)) : sget k m = None <-> ~ In k (map fst m).
Proof.
  induction m as [|[k' v'] m IH]; simpl; [intuition|].
  destruct (String.eqb k k') eqn:E.
  - apply String.eqb_eq in E; subst; split; [discriminate | intros H; elim H; auto].
  - apply String.eqb_neq in E; rewrite IH; intuition.
Qed.

(** Decimal rendering of a counter, as Rust's [format!("{n}")]. *)
Definition dec (n : nat) : string := NilEmpty.string_of_uint (Nat.to_uint n).

Lemma dec_inj n m : dec n = dec m -> n = m.
Proof.
  unfold dec; intros H.
  assert (E : Nat.to_uint n = Nat.to_uint m).
  { assert (E1 := NilEmpty.usu (Nat.to_uint n)). rewrite H, NilEmpty.usu in E1. now inversion E1. }
  rewrite <- (Unsigned.of_to n), <- (Unsigned.of_to m), E; reflexivity.
Qed.

(** Every character of [dec n] is a decimal digit. *)
Definition is_digit (c : ascii) : bool :=
  (48 <=? nat_of_ascii c) && (nat_of_ascii c <=? 57).
Fixpoint all_chars (p : ascii -> bool) (s : string) : bool :=
  match s with EmptyString => true | String c s' => p c && all_chars p s' end.
Fixpoint any_char (p : ascii -> bool) (s : string) : bool :=
  match s with EmptyString => false | String c s' => p c || any_char p s' end.

Lemma string_of_uint_digits d : all_chars is_digit (NilEmpty.string_of_uint d) = true.
Proof. induction d; simpl; auto. Qed.
Lemma dec_digits n : all_chars is_digit (dec n) = true.
Proof. apply string_of_uint_digits. Qed.
Lemma dec_nonempty n : dec n <> "".
Proof.
  unfold dec; intros H.
  assert (E : Nat.to_uint n = Nil).
  { assert (E1 := NilEmpty.usu (Nat.to_uint n)). rewrite H in E1. simpl in E1. now inversion E1. }
  assert (Hn : n = 0) by (rewrite <- (Unsigned.of_to n), E; reflexivity).
  subst n; discriminate E.
Qed.

(** String append. *)
Lemma app_empty_r s : s +++ "" = s.
Proof. induction s; simpl; congruence. Qed.
Lemma sapp_assoc a b c : (a +++ b) +++ c = a +++ (b +++ c).
Proof. induction a; simpl; congruence. Qed.
Lemma sapp_inj_l a b c : a +++ b = a +++ c -> b = c.
Proof. induction a; simpl; intros H; [exact H|]. inversion H; auto. Qed.
Lemma slen_app a b : String.length (a +++ b) = String.length a + String.length b.
Proof. induction a; simpl; congruence. Qed.
Lemma sapp_inj_r a b c : a +++ c = b +++ c -> a = b.
Proof.
  revert b; induction a as [|x a IH]; intros b H; destruct b as [|y b].
  - reflexivity.
  - exfalso. apply (f_equal String.length) in H. simpl in H.
    rewrite slen_app in H. lia.
  - exfalso. apply (f_equal String.length) in H. simpl in H.
    rewrite slen_app in H. lia.
  - simpl in H. inversion H; f_equal; auto.
Qed.
Lemma sapp_eq_len a b c d :
  String.length a = String.length c -> a +++ b = c +++ d -> a = c /\ b = d.
Proof.
  revert c; induction a as [|x a IH]; intros [|y c] L H; simpl in *; try discriminate; auto.
  inversion H; subst. destruct (IH c) as [-> ->]; auto.
Qed.
Lemma all_chars_app p a b : all_chars p (a +++ b) = all_chars p a && all_chars p b.
Proof. induction a; simpl; [reflexivity|]. rewrite IHa, andb_assoc; reflexivity. Qed.
Lemma any_char_app p a b : any_char p (a +++ b) = any_char p a || any_char p b.
Proof. induction a; simpl; [reflexivity|]. rewrite IHa, orb_assoc; reflexivity. Qed.

(** [str::starts_with], [str::ends_with], [str::contains]. *)
Definition starts_with (p s : string) : bool := String.prefix p s.
Arguments starts_with : simpl never.
Fixpoint ends_with (suf s : string) : bool :=
  String.eqb suf s || match s with EmptyString => false | String _ s' => ends_with suf s' end.
Fixpoint contains (p s : string) : bool :=
  starts_with p s || match s with EmptyString => false | String _ s' => contains p s' end.

Lemma starts_with_spec p s : starts_with p s = true <-> exists t, s = p +++ t.
Proof.
  unfold starts_with; revert s; induction p as [|c p IH]; intros s.
  - split; [intros _; now exists s | destruct s; reflexivity].
  - destruct s as [|d s]; simpl; [split; [discriminate | intros [t H]; discriminate]|].
    destruct (ascii_dec c d) as [->|N].
    + rewrite IH; split; intros [t H]; exists t; [now rewrite H | now inversion H].
    + split; [discriminate | intros [t H]; inversion H; congruence].
Qed.
Lemma starts_with_cons c p d s : starts_with (String c p) (String d s) = Ascii.eqb c d && starts_with p s.
Proof.
  unfold starts_with; cbn [String.prefix]. destruct (ascii_dec c d) as [->|N].
  - rewrite Ascii.eqb_refl. reflexivity.
  - apply Ascii.eqb_neq in N. rewrite N. reflexivity.
Qed.
Lemma ends_with_spec p s : ends_with p s = true <-> exists t, s = t +++ p.
Proof.
  induction s as [|c s IH]; simpl.
  - rewrite orb_false_r, String.eqb_eq; split.
    + intros ->; now exists "".
    + intros [t H]. destruct t; [now symmetry | discriminate].
  - rewrite orb_true_iff, String.eqb_eq, IH; split.
    + intros [->|[t ->]]; [now exists "" | now exists (String c t)].
    + intros [t H]. destruct t as [|d t]; simpl in H; [left; now symmetry|].
      inversion H; subst; right; now exists t.
Qed.
Lemma contains_spec p s : contains p s = true <-> exists a b, s = a +++ p +++ b.
Proof.
  induction s as [|c s IH]; simpl.
  - rewrite orb_false_r, starts_with_spec; split.
    + intros [t H]; exists "", t; exact H.
    + intros [a [b H]]. destruct a; [now exists b | discriminate].
  - rewrite orb_true_iff, starts_with_spec, IH; split.
    + intros [[t H]|[a [b H]]]; [now exists "", t | exists (String c a), b; now rewrite H].
    + intros [a [b H]]. destruct a as [|d a]; simpl in H; [left; now exists b|].
      inversion H; subst; right; now exists a, b.
Qed.

(** [itertools::join] / [slice::join]. *)
Fixpoint join (sep : string) (l : list string) : string :=
  match l with
  | [] => ""
  | [x] => x
  | x :: l' => x +++ sep +++ join sep l'
  end.

(** List helpers. *)
Lemma NoDup_app_inv {A} (l1 l2 : list A) :
  NoDup (l1 ++ l2) -> NoDup l1 /\ NoDup l2 /\ (forall x, In x l1 -> ~ In x l2).
Proof.
  induction l1 as [|a l1 IH]; simpl; intros H.
  - split; [constructor | split; [exact H | intros x []]].
  - inversion H; subst. destruct (IH H3) as [H4 [H5 H6]].
    split; [constructor; [rewrite in_app_iff in H2; tauto | exact H4]|].
    split; [exact H5|]. intros x [<-|Hx]; [rewrite in_app_iff in H2; tauto | auto].
Qed.
Lemma NoDup_app_intro {A} (l1 l2 : list A) :
  NoDup l1 -> NoDup l2 -> (forall x, In x l1 -> ~ In x l2) -> NoDup (l1 ++ l2).
Proof.
  induction l1 as [|a l1 IH]; simpl; intros H1 H2 H3; [exact H2|].
  inversion H1; subst. constructor.
  - rewrite in_app_iff; intros [H|H]; [auto | eapply H3; eauto].
  - apply IH; auto.
Qed.
Lemma NoDup_map_filter {A B} (f : A -> B) (p : A -> bool) l :
  NoDup (map f l) -> NoDup (map f (filter p l)).
Proof.
  induction l as [|a l IH]; simpl; intros H; [constructor|].
  inversion H; subst. destruct (p a); simpl; [|auto].
  constructor; [|auto]. intros Hin; apply H2.
  apply in_map_iff in Hin; destruct Hin as [y [Hy Hin]].
  apply filter_In in Hin; apply in_map_iff; exists y; tauto.
Qed.
Lemma NoDup_map_inj_in {A B} (f : A -> B) l x y :
  NoDup (map f l) -> In x l -> In y l -> f x = f y -> x = y.
Proof.
  induction l as [|a l IH]; simpl; intros H Hx Hy E; [contradiction|].
  inversion H; subst. destruct Hx as [<-|Hx], Hy as [<-|Hy]; auto.
  - elim H2. rewrite E. now apply in_map.
  - elim H2. rewrite <- E. now apply in_map.
Qed.
Lemma filter_all {A} (p : A -> bool) l : (forall x, In x l -> p x = true) -> filter p l = l.
Proof.
  induction l as [|a l IH]; simpl; intros H; [reflexivity|].
  rewrite H by auto. f_equal; auto.
Qed.
Lemma Forall2_in_r {A B} (R : A -> B -> Prop) l1 l2 b :
  Forall2 R l1 l2 -> In b l2 -> exists a, In a l1 /\ R a b.
Proof.
  induction 1 as [|x y l1 l2 H F IH]; intros Hb; [destruct Hb|].
  destruct Hb as [<-|Hb]; [exists x; split; [left|]; auto|].
  destruct IH as (a & H1 & H2); [exact Hb | exists a; split; [right|]; auto].
Qed.
Lemma Forall2_in_l {A B} (R : A -> B -> Prop) l1 l2 a :
  Forall2 R l1 l2 -> In a l1 -> exists b, In b l2 /\ R a b.
Proof.
  induction 1 as [|x y l1 l2 H F IH]; intros Hb; [destruct Hb|].
  destruct Hb as [<-|Hb]; [exists y; split; [left|]; auto|].
  destruct IH as (b & H1 & H2); [exact Hb | exists b; split; [right|]; auto].
Qed.
Lemma Forall2_mono {A B} (R S : A -> B -> Prop) l1 l2 :
  (forall a b, In a l1 -> In b l2 -> R a b -> S a b) -> Forall2 R l1 l2 -> Forall2 S l1 l2.
Proof.
  intros H F. induction F as [|x y l1 l2 Rxy F IH]; constructor.
  - apply H; [left | left |]; auto.
  - apply IH. intros a b Ha Hb. apply H; right; assumption.
Qed.
Lemma Forall2_map_eq {A B C} (R : A -> B -> Prop) (f : A -> C) (g : B -> C) l1 l2 :
  (forall a b, R a b -> g b = f a) -> Forall2 R l1 l2 -> map g l2 = map f l1.
Proof. intros H F. induction F; simpl; [reflexivity|]. f_equal; auto. Qed.
Lemma Forall2_map_intro {A B} (R : A -> B -> Prop) (f : A -> B) l :
  (forall a, In a l -> R a (f a)) -> Forall2 R l (map f l).
Proof.
  induction l as [|a l IH]; simpl; intros H; constructor; [apply H; auto|].
  apply IH. intros b Hb. apply H. auto.
Qed.

(** Two ways of splitting one string: one of the cuts is at or before the other. *)
Lemma sapp_cases a b c d : a +++ b = c +++ d ->
  (exists t, a = c +++ t /\ d = t +++ b) \/ (exists t, c = a +++ t /\ b = t +++ d).
Proof.
  revert c; induction a as [|x a IH]; intros c H; simpl in H.
  - right. exists c. auto.
  - destruct c as [|y c]; simpl in H.
    + left. exists (String x a). auto.
    + inversion H; subst. destruct (IH c H2) as [[t [-> ->]]|[t [-> ->]]]; [left | right]; exists t; auto.
Qed.
(** A maximal run of digits at the end of a string, after a non-digit, is determined by the string. *)
Lemma digits_split a b c d1 d2 e :
  is_digit c = false -> is_digit e = false ->
  all_chars is_digit d1 = true -> all_chars is_digit d2 = true ->
  a +++ String c d1 = b +++ String e d2 -> a = b /\ c = e /\ d1 = d2.
Proof.
  intros Hc He H1 H2 H. destruct (sapp_cases _ _ _ _ H) as [[t [Ea Ed]]|[t [Ea Ed]]].
  - destruct t as [|x t]; simpl in Ed.
    + rewrite app_empty_r in Ea. inversion Ed; subst. auto.
    + inversion Ed; subst. rewrite all_chars_app in H2. simpl in H2. rewrite Hc in H2. simpl in H2.
      rewrite andb_false_r in H2. discriminate.
  - destruct t as [|x t]; simpl in Ed.
    + rewrite app_empty_r in Ea. inversion Ed; subst. auto.
    + inversion Ed; subst. rewrite all_chars_app in H1. simpl in H1. rewrite He in H1. simpl in H1.
      rewrite andb_false_r in H1. discriminate.
Qed.
(** The text after the last occurrence of a separator is determined by the string. *)
Lemma last_sep_split sep a b d1 d2 :
  any_char (Ascii.eqb sep) d1 = false -> any_char (Ascii.eqb sep) d2 = false ->
  a +++ String sep d1 = b +++ String sep d2 -> a = b /\ d1 = d2.
Proof.
  intros H1 H2 H. destruct (sapp_cases _ _ _ _ H) as [[t [Ea Ed]]|[t [Ea Ed]]].
  - destruct t as [|x t]; simpl in Ed.
    + rewrite app_empty_r in Ea. inversion Ed; subst. auto.
    + inversion Ed; subst. rewrite any_char_app in H2. simpl in H2.
      rewrite Ascii.eqb_refl in H2. simpl in H2. rewrite orb_true_r in H2. discriminate.
  - destruct t as [|x t]; simpl in Ed.
    + rewrite app_empty_r in Ea. inversion Ed; subst. auto.
    + inversion Ed; subst. rewrite any_char_app in H1. simpl in H1.
      rewrite Ascii.eqb_refl in H1. simpl in H1. rewrite orb_true_r in H1. discriminate.
Qed.
