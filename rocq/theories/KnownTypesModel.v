(** engine/src/known_types.rs: the database of built-in types. *)
From Verif Require Import Base QNamesModel.

(** engine/src/known_types.rs:17-30 [Behavior]. *)
Inductive behavior :=
| CxxContainerPtr | CxxContainerVector | BCxxString | RustStr | RustString | RustByValue
| CByValue | CByValueVecSafe | CVariableLengthByValue | CVoid | CChar16 | RustContainerByValueSafe.

(** engine/src/known_types.rs:34-45 [TypeDetails]. *)
Record type_details := TD {
  td_rs : string; td_cpp : string; td_behavior : behavior; td_extra : option string;
  td_const_copy : bool; td_move : bool }.

(** engine/src/known_types.rs:482-500 [insert_ctype]: the two entries of a C
    integer type. [nospace] is [cname.replace(' ', "")]. *)
Definition ctype_entries (cname nospace : string) : list type_details :=
  [ TD ("autocxx::c_" +++ nospace) cname CVariableLengthByValue
       (Some ("std::os::raw::c_" +++ nospace)) true true;
    TD ("autocxx::c_u" +++ nospace) ("unsigned " +++ cname) CVariableLengthByValue
       (Some ("std::os::raw::c_u" +++ nospace)) true true ].

(** engine/src/known_types.rs:367-556 [create_type_database]: the entries, in
    insertion order. *)
Definition known_table : list type_details :=
  [ TD "cxx::UniquePtr" "std::unique_ptr" CxxContainerPtr None false true;
    TD "cxx::CxxVector" "std::vector" CxxContainerVector None false true;
    TD "cxx::SharedPtr" "std::shared_ptr" CxxContainerPtr None true true;
    TD "cxx::WeakPtr" "std::weak_ptr" CxxContainerPtr None true true;
    TD "cxx::CxxString" "std::string" BCxxString None true true;
    TD "str" "rust::Str" RustStr None true false;
    TD "String" "rust::String" RustString None true true;
    TD "std::boxed::Box" "rust::Box" RustContainerByValueSafe None false true;
    TD "i8" "int8_t" CByValueVecSafe (Some "std::os::raw::c_schar") true true;
    TD "u8" "uint8_t" CByValueVecSafe (Some "std::os::raw::c_uchar") true true ]
  ++ flat_map (fun x =>
       [ TD ("u" +++ dec x) ("uint" +++ dec x +++ "_t") CByValueVecSafe None true true;
         TD ("i" +++ dec x) ("int" +++ dec x +++ "_t") CByValueVecSafe None true true ]) [16; 32; 64]
  ++ [ TD "bool" "bool" CByValue None true true;
       TD "core::pin::Pin" "Pin" RustByValue (Some "std::pin::Pin") true false ]
  ++ ctype_entries "long" "long" ++ ctype_entries "int" "int"
  ++ ctype_entries "short" "short" ++ ctype_entries "long long" "longlong"
  ++ [ TD "f32" "float" CByValueVecSafe None true true;
       TD "f64" "double" CByValueVecSafe None true true;
       TD "::std::os::raw::c_char" "char" CByValue None true true;
       TD "usize" "size_t" CByValueVecSafe None true true;
       TD "autocxx::c_void" "void" CVoid (Some "std::os::raw::c_void") false false;
       TD "autocxx::c_char16_t" "char16_t" CChar16 (Some "c_char16_t") false false ].

(** engine/src/known_types.rs:131-134 [TypeDatabase]. *)
Record type_db := DB { by_rs : list (qname * type_details); canon : list (qname * qname) }.

(** engine/src/known_types.rs:340-353 [insert]. *)
Definition db_insert (db : type_db) (td : type_details) : type_db :=
  let rs := new_from_cpp_name (td_rs td) in
  let c1 := match td_extra td with
            | Some e => qset (new_from_cpp_name e) rs (canon db)
            | None => canon db
            end in
  DB (qset rs td (by_rs db)) (qset (new_from_cpp_name (td_cpp td)) rs c1).

Definition known_db : type_db := fold_left db_insert known_table (DB [] []).

(** engine/src/known_types.rs:163-170 [get]. *)
Definition db_get (db : type_db) (ty : qname) : option type_details :=
  qget (match qget ty (canon db) with Some c => c | None => ty end) (by_rs db).
Definition kt_get (ty : qname) : option type_details := db_get known_db ty.

(** engine/src/known_types.rs:190-192 [all_names]. *)
Definition kt_all_names : list qname := map fst (canon known_db) ++ map fst (by_rs known_db).

(** engine/src/known_types.rs:268-270 [is_known_type], 330-332
    [conflicts_with_built_in_type]. *)
Definition is_known_type (q : qname) : bool := match kt_get q with Some _ => true | None => false end.

(** engine/src/known_types.rs:202-216: POD safety by behaviour. *)
Definition behavior_pod_safe (b : behavior) : bool :=
  match b with BCxxString | CxxContainerVector | CVoid => false | _ => true end.
(** engine/src/known_types.rs:196-220 [get_pod_safe_types]; [None] is the panic of
    [self.get(tn).unwrap()]. *)
Definition pod_safe_types : list (qname * option bool) :=
  map (fun n => (n, option_map (fun td => behavior_pod_safe (td_behavior td)) (kt_get n))) kt_all_names.

Definition on_behavior (f : behavior -> bool) (dflt : bool) (q : qname) : bool :=
  match kt_get q with Some td => f (td_behavior td) | None => dflt end.

(** engine/src/known_types.rs:235-239 [should_dereference_in_cpp]. *)
Definition should_dereference_in_cpp := on_behavior (fun b => match b with RustStr => true | _ => false end) false.
(** engine/src/known_types.rs:242-253 [lacks_copy_constructor]. *)
Definition lacks_copy_constructor := on_behavior (fun b => match b with
  CxxContainerPtr | CxxContainerVector | RustContainerByValueSafe => true | _ => false end) false.
(** engine/src/known_types.rs:264-266 [special_cpp_name]. *)
Definition special_cpp_name (q : qname) : option string := option_map td_cpp (kt_get q).
(** engine/src/known_types.rs:273-280 [is_known_subtitute_type]. *)
Definition is_known_substitute_type (q : qname) : bool :=
  match qn_ns q with
  | [] => existsb (fun n => String.eqb (qn_item n) (qn_item q)) kt_all_names
  | _ => false
  end.
(** engine/src/known_types.rs:288-297 [is_ctype]. *)
Definition is_ctype := on_behavior (fun b => match b with
  CVariableLengthByValue | CVoid | CChar16 => true | _ => false end) false.
(** engine/src/known_types.rs:119-126, 302-306 [cxx_generic_behavior]. *)
Inductive cxx_generic := GNot | GCppPtr | GCppVector | GRust.
Definition cxx_generic_behavior (q : qname) : cxx_generic :=
  match kt_get q with
  | Some td => match td_behavior td with
               | CxxContainerPtr => GCppPtr
               | CxxContainerVector => GCppVector
               | RustContainerByValueSafe => GRust
               | _ => GNot
               end
  | None => GNot
  end.
(** engine/src/known_types.rs:308-311 [is_cxx_acceptable_receiver]. *)
Definition is_cxx_acceptable_receiver (q : qname) : bool := negb (is_known_type q).
(** engine/src/known_types.rs:313-317 [permissible_within_vector]. *)
Definition permissible_within_vector := on_behavior (fun b => match b with
  BCxxString | CByValueVecSafe => true | _ => false end) true.
(** engine/src/known_types.rs:319-328 [permissible_within_unique_ptr]. *)
Definition permissible_within_unique_ptr := on_behavior (fun b => match b with
  BCxxString | CxxContainerVector => true | _ => false end) true.
(** engine/src/known_types.rs:334-338 [convertible_from_strs]. *)
Definition convertible_from_strs := on_behavior (fun b => match b with BCxxString => true | _ => false end) false.
(** engine/src/known_types.rs:355-364 [get_moveit_safe_types]. *)
Definition moveit_safe_types : list qname :=
  filter (on_behavior (fun b => match b with BCxxString | CxxContainerVector => false | _ => true end) false)
    kt_all_names.
(** engine/src/known_types.rs:222-230 [get_constructor_details]: (move, const copy). *)
Definition constructor_details (q : qname) : option (bool * bool) :=
  option_map (fun td => (td_move td, td_const_copy td)) (kt_get q).

(** engine/src/types.rs:180-190 [to_cpp_name]. *)
Definition to_cpp_name (q : qname) : string :=
  match special_cpp_name q with Some n => n | None => plain_cpp_name q end.
