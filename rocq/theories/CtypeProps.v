(** C101: the engine and the library agree on C++'s integers. *)
From Verif Require Import Base QNamesModel KnownTypesModel ByValueProofs CppTypesModel CppGenModel CtypeModel.

(** Which C++ type a Rust type stands for, by Rust's documentation of [std::os::raw]; [char16_t] has sixteen bits wherever Rust runs. *)
Definition stands_for (rust cpp : string) : Prop :=
  In (rust, cpp)
    [("std::os::raw::c_short", "short"); ("std::os::raw::c_ushort", "unsigned short"); ("std::os::raw::c_int", "int"); ("std::os::raw::c_uint", "unsigned int");
     ("std::os::raw::c_long", "long"); ("std::os::raw::c_ulong", "unsigned long"); ("std::os::raw::c_longlong", "long long"); ("std::os::raw::c_ulonglong", "unsigned long long");
     ("std::os::raw::c_uchar", "unsigned char"); ("std::os::raw::c_void", "void"); ("u16", "char16_t")].

(** One entry of the engine's table, as far as it is one of these types. *)
Definition agrees (td : type_details) : bool :=
  match td_behavior td with
  | CVariableLengthByValue | CVoid | CChar16 =>
      existsb (fun w => qn_eqb (new_from_cpp_name (td_rs td)) (QN ["autocxx"] (w_name w)) && String.eqb (w_id w) (w_name w)
        && existsb (fun p => String.eqb (fst p) (w_inner w) && String.eqb (snd p) (td_cpp td))
            [("std::os::raw::c_short", "short"); ("std::os::raw::c_ushort", "unsigned short"); ("std::os::raw::c_int", "int"); ("std::os::raw::c_uint", "unsigned int");
     ("std::os::raw::c_long", "long"); ("std::os::raw::c_ulong", "unsigned long"); ("std::os::raw::c_longlong", "long long"); ("std::os::raw::c_ulonglong", "unsigned long long");
     ("std::os::raw::c_uchar", "unsigned char"); ("std::os::raw::c_void", "void"); ("u16", "char16_t")]
        && String.eqb (match ex_type (generate_ctype_typedef (QN ["autocxx"] (w_name w))) with Some t => t | None => "" end) ("typedef " +++ td_cpp td +++ " " +++ w_id w +++ ";")) wrappers
  | _ => true
  end.
Lemma all_agree : forallb agrees known_table = true.
Proof. vm_compute. reflexivity. Qed.

(** By whatever name one of these types is known: the Rust type which the engine uses for it is a wrapper in the library; what is inside stands for the C++ type; and the
    identifier by which cxx checks it is the name which the engine gives to that C++ type in the additional header. *)
Theorem c101_wrapped : forall q, is_ctype q = true -> exists td w, kt_get q = Some td /\ In w wrappers /\
  new_from_cpp_name (td_rs td) = QN ["autocxx"] (w_name w) /\ stands_for (w_inner w) (td_cpp td) /\
  ex_type (generate_ctype_typedef (new_from_cpp_name (td_rs td))) = Some ("typedef " +++ td_cpp td +++ " " +++ w_id w +++ ";").
Proof.
  intros q. unfold is_ctype, on_behavior. destruct (kt_get q) as [td|] eqn:K; [|discriminate]. intros B. pose proof (kt_get_table q td K) as I.
  pose proof all_agree as A. rewrite forallb_forall in A. specialize (A td I). unfold agrees in A.
  assert (X : exists w, In w wrappers /\ new_from_cpp_name (td_rs td) = QN ["autocxx"] (w_name w) /\ stands_for (w_inner w) (td_cpp td) /\
    (match ex_type (generate_ctype_typedef (QN ["autocxx"] (w_name w))) with Some t => t | None => "" end) = "typedef " +++ td_cpp td +++ " " +++ w_id w +++ ";").
  { destruct (td_behavior td); try discriminate B;
      (apply existsb_exists in A as (w & W & A); apply andb_prop in A as [A T]; apply andb_prop in A as [A P]; apply andb_prop in A as [N _];
       exists w; split; [exact W|]; split; [apply qn_eqb_eq; exact N|]; split; [|apply String.eqb_eq; exact T];
       apply existsb_exists in P as ([p c] & P & E); apply andb_prop in E as [E1 E2]; apply String.eqb_eq in E1, E2; cbn [fst snd] in E1, E2; subst; exact P). }
  destruct X as (w & W & N & S & T). exists td, w. split; [reflexivity|]. split; [exact W|]. split; [exact N|]. split; [exact S|]. rewrite N.
  unfold generate_ctype_typedef, generate_typedef in *. cbn [ex_type] in *. rewrite T. reflexivity.
Qed.

(** No two wrappers have the same name or identifier, so that cxx does not take one for another. *)
Theorem c101_distinct : NoDup (map w_name wrappers) /\ NoDup (map w_id wrappers).
Proof. split; repeat (constructor; [cbn; intuition discriminate|]); constructor. Qed.
Print Assumptions c101_wrapped.
Print Assumptions c101_distinct.

(** [unsigned long long], by its names in C++, in bindgen's output and in Rust. *)
Example c101_case : is_ctype (new_from_cpp_name "unsigned long long") = true /\ is_ctype (new_from_cpp_name "std::os::raw::c_ulonglong") = true /\
  is_ctype (new_from_cpp_name "autocxx::c_ulonglong") = true /\ is_ctype (new_from_cpp_name "float") = false.
Proof. vm_compute. auto. Qed.
