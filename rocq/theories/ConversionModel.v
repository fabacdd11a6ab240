(** engine/src/conversion/analysis/fun/function_wrapper.rs: how an argument or result is converted
    between Rust and C++. *)
From Verif Require Import Base ApiModel TypesModel.

(** engine/src/conversion/analysis/fun/function_wrapper.rs:19-31 [CppConversionType]. *)
Inductive cpp_conv :=
| CcNone | CcMove | CcFromUniquePtrToValue | CcFromPtrToValue | CcFromValueToUniquePtr | CcFromPtrToMove
| CcIgnoredPlacementPtrParameter | CcFromReturnValueToPlacementPtr | CcFromPointerToReference
| CcFromReferenceToPointer.

(** engine/src/conversion/analysis/fun/function_wrapper.rs:37-48 [CppConversionType::inverse]; [None] is
    the panic. *)
Definition cpp_inverse (c : cpp_conv) : option cpp_conv :=
  match c with
  | CcNone => Some CcNone
  | CcFromUniquePtrToValue | CcFromPtrToValue => Some CcFromValueToUniquePtr
  | CcFromValueToUniquePtr => Some CcFromUniquePtrToValue
  | CcFromPointerToReference => Some CcFromReferenceToPointer
  | CcFromReferenceToPointer => Some CcFromPointerToReference
  | _ => None
  end.

(** engine/src/conversion/analysis/fun/function_wrapper.rs:52-64 [RustConversionType]. *)
Inductive rust_conv :=
| RcNone | RcFromStr | RcToBoxedUpHolder (sub : qname) | RcFromPinMaybeUninitToPtr | RcFromPinMoveRefToPtr
| RcFromTypeToPtr | RcFromValueParamToPtr | RcFromPlacementParamToNewReturn | RcFromRValueParamToPtr
| RcFromReferenceWrapperToPointer | RcFromPointerToReferenceWrapper.

(** engine/src/conversion/analysis/fun/function_wrapper.rs:92-96 [TypeConversionPolicy]. *)
Record policy := Policy { pol_type : ty; pol_cpp : cpp_conv; pol_rust : rust_conv }.

(** engine/src/conversion/analysis/fun/function_wrapper.rs:99-101 [new_unconverted]. *)
Definition new_unconverted (t : ty) : policy := Policy t CcNone RcNone.

(** engine/src/conversion/type_helpers.rs:43-58 [is_pin]: exactly three segments. *)
Definition is_pin (lead : list string) (id : string) : bool :=
  match lead with
  | [a; b] => (String.eqb a "std" || String.eqb a "core") && String.eqb b "pin" && String.eqb id "Pin"
  | _ => false
  end.
(** engine/src/conversion/type_helpers.rs:19-40 [extract_pinned_mutable_reference_type]. *)
Definition extract_pinned_mutable_reference_type (t : ty) : option ty :=
  match t with
  | TPath lead id [TRef true _ e] => if is_pin lead id then Some e else None
  | _ => None
  end.

(** engine/src/conversion/analysis/fun/function_wrapper.rs:119-142 [return_reference_into_wrapper]; [None]
    is a panic. *)
Definition return_reference_into_wrapper (t : ty) : option policy :=
  match t with
  | TRef m _ e => Some (Policy (TPtr m e) CcFromReferenceToPointer RcFromPointerToReferenceWrapper)
  | TPath _ _ _ =>
      match extract_pinned_mutable_reference_type t with
      | Some e => Some (Policy (TPtr true e) CcFromReferenceToPointer RcFromPointerToReferenceWrapper)
      | None => None
      end
  | _ => None
  end.
(** engine/src/conversion/analysis/fun/function_wrapper.rs:144-161 [new_to_unique_ptr],
    [new_for_placement_return]. *)
Definition new_to_unique_ptr (t : ty) : policy := Policy t CcFromValueToUniquePtr RcNone.
Definition new_for_placement_return (t : ty) : policy := Policy t CcFromReturnValueToPlacementPtr RcNone.

(** engine/src/conversion/analysis/fun/function_wrapper.rs:163-165 [cpp_work_needed], 194-196
    [rust_work_needed]. *)
Definition cpp_work_needed (p : policy) : bool := match pol_cpp p with CcNone => false | _ => true end.
Definition rust_work_needed (p : policy) : bool := match pol_rust p with RcNone => false | _ => true end.

(** engine/src/conversion/analysis/fun/function_wrapper.rs:187-192 [make_unique_ptr_type]. *)
Definition make_unique_ptr_type (t : ty) : ty := TPath ["cxx"] "UniquePtr" [t].
(** engine/src/conversion/analysis/fun/function_wrapper.rs:167-172 [unconverted_rust_type], 174-185
    [converted_rust_type]. *)
Definition unconverted_rust_type (p : policy) : ty :=
  match pol_cpp p with CcFromValueToUniquePtr => make_unique_ptr_type (pol_type p) | _ => pol_type p end.
Definition converted_rust_type (p : policy) : ty :=
  match pol_cpp p with
  | CcFromUniquePtrToValue => make_unique_ptr_type (pol_type p)
  | CcFromPtrToValue => TPtr true (pol_type p)
  | _ => pol_type p
  end.
(** engine/src/conversion/analysis/fun/function_wrapper.rs:201-207 [TypeConversionPolicy::inverse]. *)
Definition policy_inverse (p : policy) : option policy :=
  match cpp_inverse (pol_cpp p) with Some c => Some (Policy (pol_type p) c (pol_rust p)) | None => None end.
(** engine/src/conversion/analysis/fun/function_wrapper.rs:209-218 [bridge_unsafe_needed]. *)
Definition bridge_unsafe_needed (p : policy) : bool :=
  match pol_rust p with
  | RcFromValueParamToPtr | RcFromRValueParamToPtr | RcFromPlacementParamToNewReturn
  | RcFromPointerToReferenceWrapper | RcFromReferenceWrapperToPointer => true
  | _ => false
  end.
(** engine/src/conversion/analysis/fun/function_wrapper.rs:220-232 [is_placement_parameter],
    [populate_return_value]. *)
Definition is_placement_parameter (p : policy) : bool :=
  match pol_cpp p with CcIgnoredPlacementPtrParameter => true | _ => false end.
Definition populate_return_value (p : policy) : bool :=
  match pol_cpp p with CcFromReturnValueToPlacementPtr => false | _ => true end.
