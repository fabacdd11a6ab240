(** engine/src/conversion/codegen_rs/unqualify.rs: dropping namespaces for the flat cxx bridge. *)
From Verif Require Import Base TypesModel.

(** engine/src/conversion/codegen_rs/unqualify.rs:16-37 [unqualify_type_path], 39-51
    [unqualify_punctuated], 53-66 [unqualify_type], 68-70 [unqualify_boxed_type]. *)
Fixpoint unqualify_type (t : ty) : ty :=
  match t with
  | TPath _ id args =>
      TPath [] id (map (fun a => match a with TNonType s => TNonType s | _ => unqualify_type a end) args)
  | TRef m lt u => TRef m lt (unqualify_type u)
  | TPtr m u => TPtr m (unqualify_type u)
  | TArray u n => TArray u n
  | TOther s => TOther s
  | TNonType s => TNonType s
  end.

(** [syn::ReturnType]. *)
Inductive ret_type := RDefault | RType (t : ty).
(** engine/src/conversion/codegen_rs/unqualify.rs:72-79 [unqualify_ret_type]. *)
Definition unqualify_ret_type (r : ret_type) : ret_type :=
  match r with RType t => RType (unqualify_type t) | RDefault => RDefault end.

(** [syn::FnArg]: a pattern with its type, or a receiver. *)
Inductive fnarg := FTyped (pat : string) (t : ty) | FReceiver (text : string).
(** engine/src/conversion/codegen_rs/unqualify.rs:81-95 [unqualify_params_minisyn], 97-110
    [unqualify_params]. *)
Definition unqualify_params (ps : list fnarg) : list fnarg :=
  map (fun p => match p with FTyped pat t => FTyped pat (unqualify_type t) | FReceiver s => FReceiver s end) ps.
