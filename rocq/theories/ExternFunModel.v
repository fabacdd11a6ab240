(** engine/src/conversion/parse/extern_fun_signatures.rs: types named by exported Rust functions. *)
From Verif Require Import Base QNamesModel TypesModel UnqualifyModel.

(** The errors of engine/src/conversion/convert_error.rs used here, without location. *)
Inductive extern_err :=
| ExReceiver       (* ExternRustFunRequiresFullyQualifiedReceiver *)
| ExPinned         (* PinnedReferencesRequiredForExternFun *)
| ExUnsupported    (* UnsupportedTypeForExternFun *)
| ExNamespace      (* NamespacesNotSupportedForExternFun *)
| ExSelf.          (* ExplicitSelf *)
Inductive ex (A : Type) := XOk (a : A) | XErr (e : extern_err) | XPanic.
Arguments XOk {A} a. Arguments XErr {A} e. Arguments XPanic {A}.

(** engine/src/conversion/parse/extern_fun_signatures.rs:147-184 [add_path_to_deps]. [XPanic] is the
    [unreachable!] of [from_type_path]. Simplification: [A<>] counts as [A]. *)
Definition add_path_to_deps (lead : list string) (id : string) (args : list ty) (deps : list qname) : ex (list qname) :=
  match args with
  | _ :: _ => XErr ExUnsupported
  | [] =>
      match path_name lead id with
      | None => XPanic
      | Some q =>
          match qn_ns q with
          | _ :: _ => XErr ExNamespace
          | [] => if String.eqb (qn_item q) "Self" then XErr ExSelf else XOk (qinsert q deps)
          end
      end
  end.

(** engine/src/conversion/parse/extern_fun_signatures.rs:54-145 [add_type_to_deps]. *)
Definition add_type_to_deps (t : ty) (deps : list qname) : ex (list qname) :=
  match t with
  | TRef true _ _ => XErr ExPinned
  | TRef false _ (TPath l id a) => add_path_to_deps l id a deps
  | TRef false _ _ => XErr ExUnsupported
  | TPath (_ :: _) _ _ => XErr ExNamespace
  | TPath [] id [] => add_path_to_deps [] id [] deps
  | TPath [] id (a :: more) =>
      if String.eqb id "Pin" then
        match more with
        | _ :: _ => XErr ExUnsupported
        | [] => match a with
                | TRef true _ (TPath l i b) => add_path_to_deps l i b deps
                | _ => XErr ExUnsupported
                end
        end
      else if String.eqb id "Box" || String.eqb id "Vec" then
        match more with
        | _ :: _ => XErr ExUnsupported
        | [] => match a with TPath l i b => add_path_to_deps l i b deps | _ => XErr ExUnsupported end
        end
      else XErr ExUnsupported
  | TPtr _ _ | TArray _ _ | TOther _ | TNonType _ => XErr ExUnsupported
  end.

(** The loop over [sig.inputs]: engine/src/conversion/parse/extern_fun_signatures.rs:39-50. *)
Fixpoint add_inputs (ps : list fnarg) (deps : list qname) : ex (list qname) :=
  match ps with
  | [] => XOk deps
  | FReceiver _ :: _ => XErr ExReceiver
  | FTyped _ t :: r =>
      match add_type_to_deps t deps with XOk d => add_inputs r d | XErr e => XErr e | XPanic => XPanic end
  end.
(** engine/src/conversion/parse/extern_fun_signatures.rs:21-50 [assemble_extern_fun_deps]. *)
Definition assemble_extern_fun_deps (inputs : list fnarg) (output : ret_type) : ex (list qname) :=
  match output with
  | RDefault => add_inputs inputs []
  | RType t => match add_type_to_deps t [] with XOk d => add_inputs inputs d | XErr e => XErr e | XPanic => XPanic end
  end.
