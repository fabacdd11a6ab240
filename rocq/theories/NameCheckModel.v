(** engine/src/conversion/analysis/name_check.rs and the identifier validation of
    engine/src/types.rs. *)
From Verif Require Import Base ApiModel ApiVecModel ErrorReporterModel QNamesModel.

Section NameCheck.
Variable builtin : string -> bool.
(** [Ident::new] (proc-macro2, not modelled) panics on strings that are not
    identifiers: [lexes s] says that it does not. *)
Variable lexes : string -> bool.
(** [syn::parse2::<Ident>] (not modelled) fails on Rust keywords. *)
Variable reserved : string -> bool.

(** Outcome of a validation: [VPanic] is a panic in [make_ident]. *)
Inductive verdict := VOk | VErr (e : cpp_error) | VPanic.

(** engine/src/types.rs:256-281 [validate_ident_ok_for_cxx], [validate_str_ok_for_rust]. The
    five error values are not distinguished: each is [EInvalidIdent id]. *)
Definition validate_ident_ok_for_cxx (id : string) : verdict :=
  if negb (lexes id) then VPanic
  else if reserved id then VErr (EInvalidIdent id)
  else if starts_with "__BindgenBitfieldUnit" id then VErr (EInvalidIdent id)
  else if starts_with "__BindgenUnionField" id then VErr (EInvalidIdent id)
  else if contains "__" id && negb (starts_with "__bindgen_marker" id) then VErr (EInvalidIdent id)
  else if starts_with "_bindgen_ty_" id then VErr (EInvalidIdent id)
  else VOk.

(** engine/src/conversion/analysis/name_check.rs:106-113 [validate_all_segments_ok_for_cxx]. *)
Fixpoint validate_all (segs : list string) : verdict :=
  match segs with
  | [] => VOk
  | s :: rest => match validate_ident_ok_for_cxx s with VOk => validate_all rest | v => v end
  end.

Definition v_and (a b : verdict) : verdict := match a with VOk => b | _ => a end.

(** engine/src/conversion/analysis/name_check.rs:35-75: the checks on one API. *)
Definition check_one (a : api) : verdict :=
  match api_kind_of a with
  | KTypedef _ _ | KForwardDeclaration _ | KOpaqueTypedef _ | KConst | KEnum | KStruct _ =>
      v_and (validate_all (segment_iter (aname a)))
            (match an_cpp (api_info a) with
             | Some c => validate_all (segment_iter (new_from_cpp_name c))
             | None => VOk
             end)
  | KSubclass sup => v_and (validate_all (segment_iter (aname a))) (validate_all (segment_iter sup))
  | KFunction _ => validate_all (segment_iter (aname a))
  | KConcreteType _ | KCType _ | KStringConstructor | KRustType | KRustSubclassFn _ _ | KRustFn _
  | KSubclassTraitItem | KExternCppType _ | KIgnored _ _ => VOk
  end.

(** The closure of the first pass, for APIs whose checks do not panic. *)
Definition pass1 (_ : unit) (a : api) : unit * res (list api) cpp_error :=
  (tt, match check_one a with VErr e => Err e | _ => Ok [a] end).

(** engine/src/conversion/analysis/name_check.rs:79-86 [names_found]: for a bridge name,
    the names of the APIs using it, in order. *)
Definition names_found (l : list api) (bn : string) : list string :=
  map (fun a => qn_display (aname a))
    (filter (fun a => match bridge_name a with Some b => String.eqb b bn | None => false end) l).

(** engine/src/conversion/analysis/name_check.rs:88-102: the closure of the second pass. *)
Definition pass2 (inter : list api) (_ : unit) (a : api) : unit * res (list api) cpp_error :=
  (tt, match bridge_name a with
       | Some bn =>
           if 1 <? length (names_found inter bn)
           then Err (EDuplicateBridgeName (names_found inter bn))
           else Ok [a]
       | None => Ok [a]
       end).

(** engine/src/conversion/analysis/name_check.rs:27-104 [check_names]; [None] is a panic while
    validating an identifier. *)
Definition check_names (apis : list api) : option apivec :=
  if existsb (fun a => match check_one a with VPanic => true | _ => false end) apis then None
  else
    let inter := snd (convert_item_apis builtin pass1 tt apis av_new) in
    Some (snd (convert_item_apis builtin (pass2 (av_apis inter)) tt (av_apis inter) av_new)).
End NameCheck.
