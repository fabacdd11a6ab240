(** Proofs about the built-in type table. *)
From Verif Require Import Base QNamesModel QNamesProofs KnownTypesModel.

Definition behavior_eq_dec (a b : behavior) : {a = b} + {a <> b}.
Proof. decide equality. Defined.
Definition td_eq_dec (a b : type_details) : {a = b} + {a <> b}.
Proof. repeat (decide equality). Defined.
Definition td_eqb (a b : type_details) : bool := if td_eq_dec a b then true else false.
Definition otd_eqb (a b : option type_details) : bool :=
  match a, b with Some x, Some y => td_eqb x y | None, None => true | _, _ => false end.
Lemma otd_eqb_eq a b : otd_eqb a b = true -> a = b.
Proof.
  unfold otd_eqb, td_eqb. destruct a as [x|], b as [y|]; try discriminate; [|reflexivity].
  destruct (td_eq_dec x y); [congruence | discriminate].
Qed.

(** The spellings of an entry. *)
Definition spellings (td : type_details) : list qname :=
  new_from_cpp_name (td_rs td) :: new_from_cpp_name (td_cpp td)
  :: match td_extra td with Some e => [new_from_cpp_name e] | None => [] end.

Lemma spellings_found :
  forallb (fun td => forallb (fun q => otd_eqb (kt_get q) (Some td)) (spellings td)) known_table = true.
Proof. vm_compute. reflexivity. Qed.
Lemma names_are_spellings :
  forallb (fun q => existsb (fun td => qmem q (spellings td)) known_table) kt_all_names = true.
Proof. vm_compute. reflexivity. Qed.

Lemma kt_get_spelling td q : In td known_table -> In q (spellings td) -> kt_get q = Some td.
Proof.
  intros Ht Hq. assert (H := spellings_found). rewrite forallb_forall in H. specialize (H td Ht).
  rewrite forallb_forall in H. apply otd_eqb_eq, H, Hq.
Qed.
Lemma kt_get_in_names q td : kt_get q = Some td -> In q kt_all_names.
Proof.
  unfold kt_get, db_get, kt_all_names. intros H. apply in_app_iff.
  destruct (qget q (canon known_db)) as [c|] eqn:E.
  - left. apply qget_In in E. apply in_map_iff. exists (q, c). auto.
  - right. apply qget_In in H. apply in_map_iff. exists (q, td). auto.
Qed.
Lemma kt_get_iff q td : kt_get q = Some td <-> In td known_table /\ In q (spellings td).
Proof.
  split; [|intros [H1 H2]; apply kt_get_spelling; assumption].
  intros H. assert (N := names_are_spellings). rewrite forallb_forall in N.
  specialize (N q (kt_get_in_names q td H)). apply existsb_exists in N. destruct N as [td' [Ht Hq]].
  apply qmem_In in Hq. assert (E := kt_get_spelling td' q Ht Hq). rewrite H in E. inversion E; subst. auto.
Qed.

Lemma special_roundtrip q n : special_cpp_name q = Some n -> kt_get (new_from_cpp_name n) = kt_get q.
Proof.
  unfold special_cpp_name. destruct (kt_get q) as [td|] eqn:E; [|discriminate].
  intros H; inversion H; subst n. apply kt_get_iff in E. destruct E as [E1 E2].
  apply kt_get_spelling; [exact E1|]. right; left; reflexivity.
Qed.
Lemma special_none q : special_cpp_name q = None <-> kt_get q = None.
Proof. unfold special_cpp_name. destruct (kt_get q); split; discriminate || reflexivity. Qed.

Lemma to_cpp_get q : good_name q = true -> kt_get (new_from_cpp_name (to_cpp_name q)) = kt_get q.
Proof.
  intros G. unfold to_cpp_name. destruct (special_cpp_name q) as [n|] eqn:E.
  - apply special_roundtrip, E.
  - rewrite roundtrip_plain by exact G. reflexivity.
Qed.
Lemma to_cpp_roundtrip q : good_name q = true -> kt_get q = None ->
  new_from_cpp_name (to_cpp_name q) = q.
Proof.
  intros G H. unfold to_cpp_name. rewrite (proj2 (special_none q) H). apply roundtrip_plain, G.
Qed.
Lemma to_cpp_inj p q : good_name p = true -> good_name q = true -> to_cpp_name p = to_cpp_name q ->
  p = q \/ exists td, kt_get p = Some td /\ kt_get q = Some td.
Proof.
  intros Gp Gq E. assert (Hp := to_cpp_get p Gp). assert (Hq := to_cpp_get q Gq). rewrite E in Hp.
  rewrite Hp in Hq. destruct (kt_get p) as [td|] eqn:Ep.
  - right. exists td. auto.
  - left. rewrite <- (to_cpp_roundtrip p Gp Ep), <- (to_cpp_roundtrip q Gq (eq_sym Hq)). now rewrite E.
Qed.
