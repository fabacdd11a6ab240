(** Rust type expressions, as far as autocxx looks at them. *)
From Verif Require Import Base QNamesModel KnownTypesModel ApiModel.

(** [syn::Type] and [syn::GenericArgument]. A path is its leading segments, its last segment and the
    generic arguments of the last segment; [[]] stands both for no arguments and for [<>].
    Simplifications: only the last segment carries arguments; a leading [::] is dropped; every other
    form of type is [TOther] with its text, and a generic argument which is not a type is [TNonType]. *)
Inductive ty :=
| TPath (lead : list string) (id : string) (args : list ty)
| TRef (mut : bool) (lt : option string) (t : ty)
| TPtr (mut : bool) (t : ty)
| TArray (t : ty) (len : string)
| TOther (text : string)
| TNonType (text : string).

(** Induction that reaches inside generic arguments. *)
Section TyInd.
  Variable P : ty -> Prop.
  Hypothesis HPath : forall lead id args, Forall P args -> P (TPath lead id args).
  Hypothesis HRef : forall m lt t, P t -> P (TRef m lt t).
  Hypothesis HPtr : forall m t, P t -> P (TPtr m t).
  Hypothesis HArray : forall t n, P t -> P (TArray t n).
  Hypothesis HOther : forall s, P (TOther s).
  Hypothesis HNonType : forall s, P (TNonType s).
  Fixpoint ty_ind' (t : ty) : P t :=
    match t with
    | TPath lead id args =>
        HPath lead id args ((fix go (l : list ty) : Forall P l :=
          match l with [] => Forall_nil P | x :: r => Forall_cons x (ty_ind' x) (go r) end) args)
    | TRef m lt u => HRef m lt u (ty_ind' u)
    | TPtr m u => HPtr m u (ty_ind' u)
    | TArray u n => HArray u n (ty_ind' u)
    | TOther s => HOther s
    | TNonType s => HNonType s
    end.
End TyInd.

(** The segments of a path: [typ.path.segments]. *)
Definition segs (lead : list string) (id : string) : list string := lead ++ [id].
(** engine/src/types.rs:95-107 [QualifiedName::from_type_path]; [None] is its [unreachable!], met only
    by the one-segment paths [root] and [output]. *)
Definition path_name (lead : list string) (id : string) : option qname := from_type_path (segs lead id).

(** Outcome of code that may fail or panic. *)
Inductive conv (A : Type) : Type := COk (a : A) | CErr (e : cpp_error) | CPanic.
Arguments COk {A} a. Arguments CErr {A} e. Arguments CPanic {A}.
Definition cbind {A B} (x : conv A) (f : A -> conv B) : conv B :=
  match x with COk a => f a | CErr e => CErr e | CPanic => CPanic end.

(** [Iterator::map(..).collect::<Result<Vec<_>,_>>()]: stops at the first failure. *)
Definition cmap {A B} (f : A -> conv B) : list A -> conv (list B) :=
  fix go l :=
    match l with
    | [] => COk []
    | a :: r => cbind (f a) (fun b => cbind (go r) (fun bs => COk (b :: bs)))
    end.
