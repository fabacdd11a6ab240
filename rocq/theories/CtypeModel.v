(** src/lib.rs:450-526: the Rust types which stand for C++'s integers of unspecified length, [void] and [char16_t]. *)
From Verif Require Import Base.

(** A wrapper: its name, the identifier cxx checks it by, and the Rust type inside. *)
Record wrapper := Wrapper { w_name : string; w_id : string; w_inner : string }.
(** src/lib.rs:451-480 [ctype_wrapper]. Simplified: without the documentation. *)
Definition ctype_wrapper (r c : string) : wrapper := Wrapper r c ("std::os::raw::" +++ r).
(** src/lib.rs:482-526. *)
Definition wrappers : list wrapper :=
  [ctype_wrapper "c_ulonglong" "c_ulonglong"; ctype_wrapper "c_longlong" "c_longlong"; ctype_wrapper "c_ulong" "c_ulong"; ctype_wrapper "c_long" "c_long";
   ctype_wrapper "c_ushort" "c_ushort"; ctype_wrapper "c_short" "c_short"; ctype_wrapper "c_uint" "c_uint"; ctype_wrapper "c_int" "c_int"; ctype_wrapper "c_uchar" "c_uchar";
   Wrapper "c_void" "c_void" "std::os::raw::c_void"; Wrapper "c_char16_t" "c_char16_t" "u16"].
