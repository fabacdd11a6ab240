(** C22: the built-in type table is self-consistent. *)
From Verif Require Import Base QNamesModel KnownTypesModel KnownTypesProofs.

(** [q] is written as one of the spellings of the entry. *)
Definition spelled (td : type_details) (q : qname) : Prop :=
  q = new_from_cpp_name (td_rs td) \/ q = new_from_cpp_name (td_cpp td)
  \/ exists e, td_extra td = Some e /\ q = new_from_cpp_name e.

Lemma spelled_iff td q : spelled td q <-> In q (spellings td).
Proof.
  unfold spelled, spellings. split.
  - intros [->|[->|[e [E ->]]]]; [left | right; left | right; right; rewrite E; left]; reflexivity.
  - intros [<-|[<-|H]]; [auto | auto |]. destruct (td_extra td) as [e|]; [|elim H].
    destruct H as [<-|[]]. right; right. exists e. auto.
Qed.

(** Looking up a name finds an entry exactly when the name is one of its spellings. *)
Theorem c22_lookup_is_by_spelling : forall q td,
  kt_get q = Some td <-> In td known_table /\ spelled td q.
Proof. intros q td. rewrite spelled_iff. apply kt_get_iff. Qed.
Print Assumptions c22_lookup_is_by_spelling.

(** No two entries share a spelling. *)
Theorem c22_spellings_disjoint : forall td td' q, In td known_table -> In td' known_table ->
  spelled td q -> spelled td' q -> td = td'.
Proof.
  intros td td' q H H' S S'.
  assert (E : kt_get q = Some td) by (apply c22_lookup_is_by_spelling; auto).
  assert (E' : kt_get q = Some td') by (apply c22_lookup_is_by_spelling; auto). congruence.
Qed.
Print Assumptions c22_spellings_disjoint.

(** Iterating over all names never unwraps a missing entry. *)
Theorem c22_lookups_never_panic : forall n, In n kt_all_names -> exists td, kt_get n = Some td.
Proof.
  intros n H. assert (N := names_are_spellings). rewrite forallb_forall in N.
  specialize (N n H). apply existsb_exists in N. destruct N as [td [Ht Hq]]. apply qmem_In in Hq.
  exists td. apply kt_get_iff. auto.
Qed.
Print Assumptions c22_lookups_never_panic.
Theorem c22_pod_facts_never_panic : forall n o, In (n, o) pod_safe_types -> o <> None.
Proof.
  intros n o H. apply in_map_iff in H. destruct H as [m [E H]]. inversion E; subst.
  destruct (c22_lookups_never_panic n H) as [td ->]. discriminate.
Qed.
Print Assumptions c22_pod_facts_never_panic.

(** A table fact that holds of every entry holds of every name. *)
Lemma by_entries (P : qname -> bool) :
  forallb (fun td => forallb P (spellings td)) known_table = true ->
  forall q, is_known_type q = true -> P q = true.
Proof.
  intros H q K. unfold is_known_type in K. destruct (kt_get q) as [td|] eqn:E; [|discriminate].
  apply kt_get_iff in E. destruct E as [E1 E2]. rewrite forallb_forall in H. specialize (H td E1).
  rewrite forallb_forall in H. apply H, E2.
Qed.

(** The POD fact of a built-in name, as given to the by-value checker. *)
Definition pod_safe (q : qname) : bool := on_behavior behavior_pod_safe false q.

Lemma pod_safe_is_table : forall q b, In (q, Some b) pod_safe_types -> pod_safe q = b.
Proof.
  intros q b H. apply in_map_iff in H. destruct H as [m [E _]].
  assert (m = q) by congruence. subst m. unfold pod_safe, on_behavior.
  destruct (kt_get q) as [td|]; inversion E; reflexivity.
Qed.

Lemma implb_true a b : implb a b = true -> a = true -> b = true.
Proof. destruct a; simpl; congruence. Qed.

(** The facts about every name (built in or not) agree with each other. *)
Theorem c22_facts_agree : forall q,
  (* C integer types, other than void, are plain old data *)
  (is_ctype q = true -> special_cpp_name q <> Some "void" -> pod_safe q = true) /\
  (* what a vector may hold is plain old data or the string type *)
  (is_known_type q = true -> permissible_within_vector q = true ->
     pod_safe q = true \/ special_cpp_name q = Some "std::string") /\
  (* generics are built in and are never themselves put in a vector *)
  (cxx_generic_behavior q <> GNot -> is_known_type q = true /\ permissible_within_vector q = false) /\
  (* a unique_ptr may hold a built-in type only if that type is not plain old data *)
  (is_known_type q = true -> permissible_within_unique_ptr q = true -> pod_safe q = false) /\
  (* what converts from Rust strings is std::string and nothing else *)
  (convertible_from_strs q = true <-> special_cpp_name q = Some "std::string") /\
  (* exactly the types unsafe to move by value, and void, are not plain old data *)
  (is_known_type q = true -> pod_safe q = false ->
     special_cpp_name q = Some "std::string" \/ special_cpp_name q = Some "std::vector"
     \/ special_cpp_name q = Some "void") /\
  (* a user's type is unrestricted, and only users' types receive methods *)
  (is_known_type q = false -> permissible_within_vector q = true /\ permissible_within_unique_ptr q = true
     /\ is_cxx_acceptable_receiver q = true /\ lacks_copy_constructor q = false /\ is_ctype q = false) /\
  (is_known_type q = true -> is_cxx_acceptable_receiver q = false).
Proof.
  intros q. set (sp := fun q s => match special_cpp_name q with Some x => String.eqb x s | None => false end).
  assert (SP : forall s, sp q s = true <-> special_cpp_name q = Some s).
  { intros s. unfold sp. destruct (special_cpp_name q) as [x|]; [rewrite String.eqb_eq|]; split; congruence. }
  destruct (is_known_type q) eqn:K.
  - assert (P1 := by_entries (fun q => implb (is_ctype q) (sp q "void" || pod_safe q)) ltac:(vm_compute; reflexivity) q K).
    assert (P2 := by_entries (fun q => implb (permissible_within_vector q) (sp q "std::string" || pod_safe q)) ltac:(vm_compute; reflexivity) q K).
    assert (P3 := by_entries (fun q => match cxx_generic_behavior q with GNot => true | _ => negb (permissible_within_vector q) end) ltac:(vm_compute; reflexivity) q K).
    assert (P4 := by_entries (fun q => implb (permissible_within_unique_ptr q) (negb (pod_safe q))) ltac:(vm_compute; reflexivity) q K).
    assert (P5 := by_entries (fun q => Bool.eqb (convertible_from_strs q) (sp q "std::string")) ltac:(vm_compute; reflexivity) q K).
    assert (P6 := by_entries (fun q => pod_safe q || sp q "std::string" || sp q "std::vector" || sp q "void") ltac:(vm_compute; reflexivity) q K).
    cbv beta in *.
    split; [|split; [|split; [|split; [|split; [|split; [|split]]]]]].
    + intros H1 H2. apply (implb_true _ _ P1) in H1. apply orb_true_iff in H1. destruct H1 as [H1|H1]; [apply SP in H1; congruence | exact H1].
    + intros _ H1. apply (implb_true _ _ P2) in H1. apply orb_true_iff in H1. destruct H1 as [H1|H1]; [right; apply SP, H1 | left; exact H1].
    + intros H. split; [reflexivity|]. destruct (cxx_generic_behavior q); [congruence | | |]; destruct (permissible_within_vector q); (discriminate || reflexivity).
    + intros _ H1. apply (implb_true _ _ P4) in H1. destruct (pod_safe q); (discriminate || reflexivity).
    + apply Bool.eqb_prop in P5. rewrite P5. apply SP.
    + intros _ H. rewrite H in P6. simpl in P6. apply orb_true_iff in P6. destruct P6 as [P6|P6]; [|right; right; apply SP, P6].
      apply orb_true_iff in P6. destruct P6 as [P6|P6]; [left | right; left]; apply SP, P6.
    + congruence.
    + intros _. unfold is_cxx_acceptable_receiver. now rewrite K.
  - assert (N : kt_get q = None) by (unfold is_known_type in K; destruct (kt_get q); [discriminate | reflexivity]).
    unfold is_ctype, permissible_within_vector, permissible_within_unique_ptr, cxx_generic_behavior, convertible_from_strs,
      special_cpp_name, lacks_copy_constructor, is_cxx_acceptable_receiver, on_behavior. rewrite K, N.
    repeat split; try discriminate; try congruence.
Qed.
Print Assumptions c22_facts_agree.

(** The two sources of copy-constructor facts: what does hold... *)
Theorem c22_copy_facts_partial : forall q move, constructor_details q = Some (move, false) ->
  lacks_copy_constructor q = true \/ is_ctype q = true.
Proof.
  intros q mv H. assert (K : is_known_type q = true).
  { unfold constructor_details in H. unfold is_known_type. destruct (kt_get q); [reflexivity | discriminate]. }
  assert (P := by_entries (fun q => match constructor_details q with
      Some (_, false) => lacks_copy_constructor q || is_ctype q | _ => true end) ltac:(vm_compute; reflexivity) q K).
  cbv beta in P. rewrite H in P. apply orb_true_iff in P. exact P.
Qed.
Print Assumptions c22_copy_facts_partial.
(** ... and what does not: [std::shared_ptr] and [std::weak_ptr] are recorded as
    having a copy constructor and, elsewhere, as lacking one (engine/src/known_types.rs:242-253
    against 391-409); [char16_t] the other way round. *)
Theorem c22_copy_facts_refuted : exists q move, constructor_details q = Some (move, true) /\
  lacks_copy_constructor q = true.
Proof. exists (QN ["std"] "shared_ptr"), true. vm_compute. auto. Qed.
(** A type safe as POD may lack a copy constructor ([std::unique_ptr]). *)
Theorem c22_pod_safe_copy_refuted : exists q, pod_safe q = true /\ lacks_copy_constructor q = true.
Proof. exists (QN ["cxx"] "UniquePtr"). vm_compute. auto. Qed.
(** A ctype need not be POD ([void]). *)
Theorem c22_ctype_pod_refuted : exists q, is_ctype q = true /\ pod_safe q = false.
Proof. exists (QN [] "void"). vm_compute. auto. Qed.

Example c22_nonvacuous :
  kt_get (QN ["std"; "os"; "raw"] "c_ulonglong") = kt_get (QN [] "unsigned long long") /\
  kt_get (QN ["autocxx"] "c_ulonglong") = kt_get (QN [] "unsigned long long") /\
  is_known_type (QN [] "unsigned long long") = true /\
  List.length known_table = 32 /\ List.length kt_all_names = 77.
Proof. vm_compute. repeat split. Qed.
