(** Names autocxx makes up: engine/src/conversion/analysis/allocators.rs, casts.rs,
    engine/src/conversion/analysis/fun/subclass.rs and [SubclassName] of engine/src/conversion/api.rs. *)
From Verif Require Import Base ApiModel.

(** engine/src/conversion/analysis/allocators.rs:106-110 [get_name]. *)
Definition alloc_get_name (ty : qname) (label : string) : qname :=
  QN (qn_ns ty) (qn_item ty +++ "_" +++ label).
(** engine/src/conversion/analysis/allocators.rs:98-104 [get_alloc_name], [get_free_name]. *)
Definition get_alloc_name (ty : qname) : qname := alloc_get_name ty "autocxx_alloc".
Definition get_free_name (ty : qname) : qname := alloc_get_name ty "autocxx_free".

(** engine/src/conversion/analysis/allocators.rs:27-42 [create_alloc_and_frees]: the names of the
    functions added in front of an API. *)
Definition alloc_and_free_names (a : api) : list qname :=
  match api_kind_of a with
  | KStruct _ => [get_alloc_name (aname a); get_free_name (aname a)]
  | KSubclass _ => [get_alloc_name (subclass_cpp (aname a)); get_free_name (subclass_cpp (aname a))]
  | _ => []
  end.

(** engine/src/conversion/api.rs:60-65 [CastMutability]; engine/src/conversion/analysis/casts.rs:54-65 only makes the first kind
    ([SUPPORT_MUTABLE_CASTS] is false). *)
Inductive cast_mutability := ConstToConst | MutToConst | MutToMut.
(** engine/src/conversion/analysis/casts.rs:120-139 [name_for_cast]. *)
Definition name_for_cast (from to : qname) (m : cast_mutability) : qname :=
  let suffix := match m with ConstToConst => "" | MutToConst => "_to_const" | MutToMut => "_mut" end in
  QN (qn_ns from) ("cast_" +++ qn_item from +++ "_to_" +++ qn_item to +++ suffix).
(** engine/src/conversion/analysis/casts.rs:42-66 [create_casts], [cast_types]: the names made for
    one class and its castable bases. *)
Definition cast_names (from : qname) (castable_bases : list qname) : list qname :=
  map (fun b => name_for_cast from b ConstToConst) castable_bases.

(** engine/src/conversion/api.rs:314-316 [with_suffix]. Identifiers are strings. *)
Definition sc_with_suffix (sub : qname) (suffix : string) : string := qn_item sub +++ suffix.
(** engine/src/conversion/api.rs:300-313 [holder], [cpp], [cpp_remove_ownership],
    [remove_ownership]; [holder] and [cpp] as qualified names are ApiModel's
    [subclass_holder], [subclass_cpp]. *)
Definition sc_holder (sub : qname) : string := sc_with_suffix sub "Holder".
Definition sc_cpp_remove_ownership (sub : qname) : string := sc_with_suffix sub "Cpp_remove_ownership".
Definition sc_remove_ownership (sub : qname) : string := sc_with_suffix sub "_remove_ownership".
(** [str::strip_suffix]. *)
Fixpoint strip_suffix (suf s : string) : option string :=
  if String.eqb s suf then Some ""
  else match s with
       | EmptyString => None
       | String c r => match strip_suffix suf r with Some p => Some (String c p) | None => None end
       end.
(** engine/src/conversion/api.rs:293-295 [from_holder_name]; [None] is the panic of [unwrap].
    [SubclassName::new] puts the name in the root namespace (engine/src/conversion/api.rs:290-292). *)
Definition from_holder_name (id : string) : option qname :=
  match strip_suffix "Holder" id with Some p => Some (QN [] p) | None => None end.
(** engine/src/conversion/api.rs:317-326 [get_trait_api_name]. *)
Definition trait_api_name (sup : qname) (method : string) : qname :=
  QN (qn_ns sup) (qn_item sup +++ "_" +++ method +++ "_trait_item").
(** engine/src/conversion/api.rs:328-331 [get_super_fn_name]. *)
Definition super_fn_name (ns : list string) (id : string) : qname := QN ns (id +++ "_super").
(** engine/src/conversion/api.rs:332-342 [get_methods_trait_name], [get_supers_trait_name]. *)
Definition methods_trait_name (sup : qname) : qname := QN (qn_ns sup) (qn_item sup +++ "_methods").
Definition supers_trait_name (sup : qname) : qname := QN (qn_ns sup) (qn_item sup +++ "_supers").
(** engine/src/conversion/analysis/fun/subclass.rs:123-127: the Rust function C++ calls to reach an
    override. *)
Definition override_name (sub method : qname) : qname :=
  QN [] (qn_item sub +++ "_" +++ qn_item method).
(** engine/src/conversion/analysis/fun/subclass.rs:221-222: the constructor of a peer. *)
Definition peer_ctor_name (sub : qname) : qname :=
  QN [] (qn_item (subclass_cpp sub) +++ "_" +++ qn_item (subclass_cpp sub)).
