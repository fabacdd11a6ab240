(** C23: qualified names round-trip through their C++ spelling. *)
From Verif Require Import Base QNamesModel QNamesProofs KnownTypesModel KnownTypesProofs.

(** A segment that can be written in C++: not empty, without a colon. *)
Definition legal_segment (s : string) : Prop := s <> "" /\ forall a b, s <> a +++ String ":" b.
(** A name all of whose segments are legal. *)
Definition legal_name (q : qname) : Prop := forall s, In s (qn_ns q ++ [qn_item q]) -> legal_segment s.
(** Not one of autocxx's built-in types, which are spelled specially in C++. *)
Definition user_type (q : qname) : Prop := is_known_type q = false.

Lemma legal_no_colon s : (forall a b, s <> a +++ String ":" b) -> no_colon s = true.
Proof.
  induction s as [|c s IH]; intros H; [reflexivity|].
  cbn [no_colon all_chars]. apply andb_true_iff. split.
  - destruct (Ascii.eqb_spec c ":") as [->|]; [elim (H "" s); reflexivity | reflexivity].
  - apply IH. intros a b ->. apply (H (String c a) b). reflexivity.
Qed.
Lemma legal_good q : legal_name q -> good_name q = true.
Proof.
  intros H. apply forallb_forall. intros s Hs. destruct (H s Hs) as [H1 H2].
  unfold good_seg. rewrite legal_no_colon by exact H2. apply String.eqb_neq in H1. now rewrite H1.
Qed.
Lemma user_none q : user_type q -> kt_get q = None.
Proof. unfold user_type, is_known_type. destruct (kt_get q); [discriminate | reflexivity]. Qed.

(** Spelling a user's name in C++ and parsing it back is the identity. *)
Theorem c23_cpp_name_roundtrip : forall q, legal_name q -> user_type q ->
  new_from_cpp_name (to_cpp_name q) = q.
Proof. intros q H U. apply to_cpp_roundtrip; [apply legal_good, H | apply user_none, U]. Qed.
Print Assumptions c23_cpp_name_roundtrip.

(** A built-in type's spelling parses back to a name of the same built-in type
    (not necessarily the same name: [cxx::CxxString] is spelled [std::string]). *)
Theorem c23_builtin_roundtrip : forall q, legal_name q -> 
  kt_get (new_from_cpp_name (to_cpp_name q)) = kt_get q.
Proof. intros q H. apply to_cpp_get, legal_good, H. Qed.
Print Assumptions c23_builtin_roundtrip.

(** Different names have different spellings, unless both name one built-in type. *)
Theorem c23_cpp_names_distinct : forall p q, legal_name p -> legal_name q -> p <> q ->
  to_cpp_name p = to_cpp_name q ->
  exists entry, kt_get p = Some entry /\ kt_get q = Some entry.
Proof.
  intros p q Hp Hq N E. destruct (to_cpp_inj p q (legal_good p Hp) (legal_good q Hq) E) as [->|H]; [congruence | exact H].
Qed.
Print Assumptions c23_cpp_names_distinct.

(** The [Display] form is the C++ spelling without the built-in table, so it is
    injective on all legal names. *)
Theorem c23_display_roundtrip : forall q, legal_name q -> new_from_cpp_name (qn_display q) = q.
Proof. intros q H. rewrite display_plain. apply roundtrip_plain, legal_good, H. Qed.
Print Assumptions c23_display_roundtrip.

(** Segments: the iterator and the constructor are inverse, for every name and
    every non-empty segment list; the constructor fails exactly on the empty list. *)
Theorem c23_segments_inverse :
  (forall q, from_segments (segment_iter q) = Some q) /\
  (forall l q, from_segments l = Some q -> segment_iter q = l) /\
  (forall l, from_segments l = None <-> l = []).
Proof.
  split; [exact from_segments_segment_iter|]. split; [exact segment_iter_from_segments|].
  intros l; split; [|intros ->; reflexivity].
  destruct l as [|x l _] using rev_ind; [reflexivity|].
  unfold from_segments. rewrite from_segments_aux_spec. discriminate.
Qed.
Print Assumptions c23_segments_inverse.

(** Parsing a C++ name never reaches its [unreachable!()], whatever the string. *)
Theorem c23_parse_never_panics : forall s, exists q, new_from_cpp_name_opt s = Some q.
Proof. intros s. exists (new_from_cpp_name s). apply new_from_cpp_name_total. Qed.
Print Assumptions c23_parse_never_panics.

(** For built-in types the name itself is not preserved ... *)
Theorem c23_builtin_name_refuted : exists q, legal_name q /\ new_from_cpp_name (to_cpp_name q) <> q.
Proof.
  exists (QN ["cxx"] "CxxString"). split; [|vm_compute; discriminate].
  intros s [<-|[<-|[]]]; (split; [discriminate|]); intros a b E;
  repeat (destruct a as [|? a]; [discriminate E | injection E as _ E]); destruct a; discriminate E.
Qed.
(** ... and forbidding only the double colon in segments would not be enough. *)
Theorem c23_single_colon_refuted : exists q, (forall s, In s (segment_iter q) -> s <> "" /\ contains "::" s = false) /\
  new_from_cpp_name (to_cpp_name q) <> q.
Proof.
  exists (QN ["a:"] "b"). split; [|vm_compute; discriminate].
  intros s [<-|[<-|[]]]; split; (discriminate || reflexivity).
Qed.

Example c23_nonvacuous :
  let q := QN ["ns1"; "ns2"] "MyType" in
  legal_name q /\ user_type q /\ to_cpp_name q = "ns1::ns2::MyType".
Proof.
  split; [|split; vm_compute; reflexivity].
  intros s [<-|[<-|[<-|[]]]]; (split; [discriminate|]); intros a b E;
  repeat (destruct a as [|? a]; [discriminate E | injection E as _ E]); destruct a; discriminate E.
Qed.
