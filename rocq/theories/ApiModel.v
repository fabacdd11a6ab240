(** The API data type shared by the analysis passes, and the accessors the
    passes use. Definitions only; proofs are elsewhere. *)
From Verif Require Import Base.

(** engine/src/conversion/api.rs:40-52 [TypeKind]. *)
Inductive type_kind := Pod | NonPod | Opaque | Abstract.

(** engine/src/conversion/analysis/fun/mod.rs:78-81 [ReceiverMutability]. *)
Inductive mutability := MConst | MMutable.

(** engine/src/conversion/analysis/fun/mod.rs:84-90 [MethodKind]. *)
Inductive method_kind :=
| MNormal | MConstructor (is_default : bool) | MStatic
| MVirtual (m : mutability) | MPureVirtual (m : mutability).

(** engine/src/conversion/analysis/fun/mod.rs:93-100 [TraitMethodKind]. *)
Inductive trait_method_kind :=
| TCopyConstructor | TMoveConstructor | TCast | TDestructor | TAlloc | TDealloc.

(** engine/src/conversion/analysis/fun/mod.rs:117-131 [FnKind]. The trait-method details
    (signature, parameter reordering) are left out. *)
Inductive fn_kind :=
| FFunction
| FMethod (mk : method_kind) (impl_for : qname)
| FTraitMethod (tk : trait_method_kind) (impl_for : qname).

(** engine/src/conversion/convert_error.rs:39-162 [ConvertErrorFromCpp]: the cases produced by the
    modelled passes are constructors; all others are [EOther] with a tag. *)
Inductive cpp_error :=
| EDuplicateItems
| EIgnoredDependent (deps : list qname)
| EUnknownDependent (dep : qname)
| EInvalidIdent (id : string)
| EDuplicateBridgeName (symbols : list string)
| EAbstractNested
| EOther (tag : string).

(** engine/src/conversion/convert_error.rs:213-217 [ErrorContextType]. *)
Inductive err_ctx :=
| CtxItem (id : string)
| CtxSanitizedItem (id : string)
| CtxMethod (self_ty method : string).

(** engine/src/conversion/api.rs:217-220 [ApiName]. *)
Record api_name := AN { an_name : qname; an_cpp : option string }.

(** engine/src/conversion/api.rs:162-189 [FuncToConvert] and engine/src/conversion/analysis/fun/mod.rs:150-181 [FnAnalysis]:
    the fields read by the modelled passes. Parameter types are token strings. *)
Record fn_info := {
  fn_ident : string;              (* FuncToConvert::ident *)
  fn_kind_of : fn_kind;           (* FnAnalysis::kind *)
  fn_bridge_name : string;        (* FnAnalysis::cxxbridge_name *)
  fn_rust_name : string;          (* FnAnalysis::rust_name *)
  fn_params : list string;        (* types of FnAnalysis::params, `this` first *)
  fn_deps : list qname;           (* FnAnalysis::deps *)
  fn_ignore : option (cpp_error * option err_ctx);  (* FnAnalysis::ignore_reason, None = Ok *)
  fn_external : bool;             (* FnAnalysis::externally_callable *)
  fn_has_wrapper : bool           (* FnAnalysis::cpp_wrapper.is_some() *)
}.

(** engine/src/conversion/analysis/pod/mod.rs:43-60 [PodAnalysis] and engine/src/conversion/analysis/fun/mod.rs:245-250
    [PodAndDepAnalysis]: the fields read by the modelled passes. *)
Record struct_info := {
  st_kind : type_kind;
  st_bases : list qname;
  st_field_deps : list qname;
  st_field_def_deps : list qname;
  st_num_generics : nat;
  st_ctor_deps : list qname       (* constructor_and_allocator_deps *)
}.

(** engine/src/conversion/api.rs:359-466 [Api]; every variant is represented, payloads are
    reduced to what the passes read. *)
Inductive api_kind :=
| KForwardDeclaration (err : option (cpp_error * option err_ctx))
| KOpaqueTypedef (forward_declaration : bool)
| KConcreteType (cpp_definition : string)
| KStringConstructor
| KFunction (f : fn_info)
| KConst
| KTypedef (old_tyname : option qname) (deps : list qname)
| KEnum
| KStruct (s : struct_info)
| KCType (typename : qname)
| KIgnored (err : cpp_error) (ctx : option err_ctx)
| KRustType
| KRustFn (deps : list qname)
| KRustSubclassFn (subclass : qname) (deps : list qname)
| KSubclass (superclass : qname)
| KSubclassTraitItem
| KExternCppType (pod : bool).

Record api := API { api_info : api_name; api_kind_of : api_kind }.

(** engine/src/conversion/api.rs:517-519 [Api::name]. *)
Definition aname (a : api) : qname := an_name (api_info a).

(** engine/src/conversion/api.rs:535-537 [discard_duplicates]; also the test
    [matches!(api, Api::IgnoredItem{..})] of engine/src/conversion/analysis/remove_ignored.rs:24. *)
Definition is_ignored (a : api) : bool :=
  match api_kind_of a with KIgnored _ _ => true | _ => false end.

(** engine/src/conversion/api.rs:300-307 [SubclassName::holder], [SubclassName::cpp]. *)
Definition subclass_holder (n : qname) : qname := QN [] (qn_item n +++ "Holder").
Definition subclass_cpp (n : qname) : qname := QN (qn_ns n) (qn_item n +++ "Cpp").

(** engine/src/conversion/api.rs:539-551 [valid_types]. *)
Definition valid_types (a : api) : list qname :=
  match api_kind_of a with
  | KSubclass _ => [aname a; subclass_holder (aname a); subclass_cpp (aname a)]
  | _ => [aname a]
  end.

(** engine/src/conversion/analysis/deps.rs:50-97 [HasDependencies for Api<FnPhase>]. *)
Definition deps (a : api) : list qname :=
  match api_kind_of a with
  | KTypedef old ds => match old with Some o => o :: ds | None => ds end
  | KStruct s =>
      match st_kind s with
      | Pod => st_field_deps s ++ st_bases s ++ st_ctor_deps s
      | _ => st_ctor_deps s
      end
  | KFunction f => fn_deps f
  | KSubclass sup => [sup]
  | KRustSubclassFn _ ds => ds
  | KRustFn ds => ds
  | _ => []
  end.

(** engine/src/conversion/analysis/fun/mod.rs:2324-2368 [HasFieldsAndBases::field_and_base_deps]. *)
Definition field_and_base_deps (a : api) : list qname :=
  match api_kind_of a with
  | KStruct s => st_field_def_deps s ++ st_bases s
  | _ => []
  end.

(** engine/src/conversion/analysis/fun/mod.rs:2283-2292 [cxxbridge_name]. *)
Definition bridge_name (a : api) : option string :=
  match api_kind_of a with
  | KFunction f => Some (fn_bridge_name f)
  | KStringConstructor | KConst | KIgnored _ _ | KRustSubclassFn _ _ => None
  | _ => Some (qn_item (aname a))
  end.

(** engine/src/conversion/analysis/fun/mod.rs:2222-2247 [name_for_allowlist]. *)
Definition name_for_allowlist (a : api) : qname :=
  match api_kind_of a with
  | KFunction f =>
      match fn_kind_of f with
      | FMethod _ q => q
      | FTraitMethod _ q => q
      | FFunction => QN (qn_ns (aname a)) (fn_ident f)
      end
  | KRustSubclassFn sub _ => sub
  | KIgnored _ (Some (CtxMethod self_ty _)) => QN (qn_ns (aname a)) self_ty
  | KIgnored _ (Some (CtxItem id)) => QN (qn_ns (aname a)) id
  | _ => aname a
  end.

(** engine/src/conversion/convert_error.rs:220-228 [ErrorContext::new_for_item] and 253-260
    [sanitize_error_ident]: [builtin] stands for
    [known_types().conflicts_with_built_in_type] on the root namespace. *)
Definition ctx_for_item (builtin : string -> bool) (id : string) : err_ctx :=
  if builtin id then CtxSanitizedItem (id +++ "_autocxx_error") else CtxItem id.

(** engine/src/conversion/convert_error.rs:230-249 [ErrorContext::new_for_method]. *)
Definition ctx_for_method (builtin : string -> bool) (self_ty method : string) : err_ctx :=
  if builtin self_ty then CtxSanitizedItem (self_ty +++ "_" +++ method)
  else CtxMethod self_ty (if builtin method then method +++ "_autocxx_error" else method).
