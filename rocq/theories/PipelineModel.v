(** engine/src/conversion/analysis/constructor_deps.rs, engine/src/conversion/analysis/ctypes.rs
    and the last phases of engine/src/conversion/mod.rs:109-212 [convert]: what happens to the list
    of APIs after the functions have been analysed and before code is generated. *)
From Verif Require Import Base ApiModel ApiVecModel ErrorReporterModel AbstractTypesModel NameCheckModel
  RemoveIgnoredModel GcModel.

(** engine/src/conversion/analysis/constructor_deps.rs:80-97, inside find_important_constructors:
    the class a function matters to when values of the class are moved about or allocated. *)
Definition important_for (a : api) : option qname :=
  match api_kind_of a with
  | KFunction f =>
      match fn_kind_of f, fn_ignore f with
      | FTraitMethod (TAlloc | TDealloc | TCopyConstructor | TMoveConstructor) q, None => Some q
      | _, _ => None
      end
  | _ => None
  end.

(** engine/src/conversion/analysis/constructor_deps.rs:98-102, inside find_important_constructors. *)
Definition note_constructor (m : list (qname * list qname)) (a : api) : list (qname * list qname) :=
  match important_for a with
  | Some q => qset q (match qget q m with Some l => l | None => [] end ++ [aname a]) m
  | None => m
  end.
(** engine/src/conversion/analysis/constructor_deps.rs:73-105 [find_important_constructors]. *)
Definition find_important_constructors (l : list api) : list (qname * list qname) := fold_left note_constructor l [].

Definition set_ctor_deps (s : struct_info) (ds : list qname) : struct_info :=
  {| st_kind := st_kind s; st_bases := st_bases s; st_field_deps := st_field_deps s; st_field_def_deps := st_field_def_deps s;
     st_num_generics := st_num_generics s; st_ctor_deps := ds |}.

(** engine/src/conversion/analysis/constructor_deps.rs:47-73 [decorate_struct]; the state is the map
    captured by the closure. *)
Definition decorate_struct (m : list (qname * list qname)) (a : api)
  : list (qname * list qname) * res (list api) err_with_ctx :=
  match api_kind_of a with
  | KStruct s =>
      if match st_kind s with Abstract => true | _ => false end || Nat.ltb 0 (st_num_generics s)
      then (m, Ok [API (api_info a) (KStruct (set_ctor_deps s []))])
      else (qdel (aname a) m,
            Ok [API (api_info a) (KStruct (set_ctor_deps s (match qget (aname a) m with Some l => l | None => [] end)))])
  | _ => (m, Ok [a])
  end.

(** [Api::fun_unchanged], [Api::enum_unchanged] and [Api::typedef_unchanged],
    engine/src/conversion/api.rs:557-613. *)
Definition same {S} (s : S) (a : api) : S * res (list api) err_with_ctx := (s, Ok [a]).

Section Pipeline.
Variable builtin : string -> bool.
Variable lexes reserved : string -> bool.
Variable known : qname -> bool.
Variable on_allowlist : string -> bool.
Variable to_cpp_name : qname -> string.
(** [known_types().is_ctype] (modelled separately in KnownTypesModel). *)
Variable ctype : qname -> bool.

(** engine/src/conversion/analysis/constructor_deps.rs:30-45 [decorate_types_with_constructor_deps]. *)
Definition decorate_types_with_constructor_deps (v : apivec) : apivec :=
  snd (convert_apis builtin same decorate_struct same same (find_important_constructors (av_apis v)) (av_apis v) av_new).

(** Insertion into an [IndexMap] keyed by identifier: a later value replaces an earlier one in place. *)
Fixpoint iset (k : string) (q : qname) (m : list (string * qname)) : list (string * qname) :=
  match m with
  | [] => [(k, q)]
  | (k', q') :: r => if String.eqb k k' then (k', q) :: r else (k', q') :: iset k q r
  end.
(** engine/src/conversion/analysis/ctypes.rs:23-36 [append_ctype_information]. *)
Definition append_ctype_information (v : apivec) : apivec :=
  let ctypes := fold_left (fun m q => iset (qn_item q) q m) (filter ctype (flat_map deps (av_apis v))) [] in
  av_extend builtin v (map (fun e => API (AN (QN [] (fst e)) None) (KCType (snd e))) ctypes).

(** engine/src/conversion/mod.rs:165-189, inside convert: from the analysed functions to the garbage
    collected list. [None] is a panic in abstract_types.rs or name_check.rs; running out of fuel, which
    is proved impossible, is [None] as well. *)
Definition to_gc (v : apivec) : option apivec :=
  match mark_types_abstract builtin v with
  | None => None
  | Some v1 =>
      let v3 := discard_ignored_functions builtin (decorate_types_with_constructor_deps v1) in
      match check_names builtin lexes reserved (av_apis v3) with
      | None => None
      | Some v4 =>
          match filter_ignored builtin known (av_apis v4) with
          | RiFuel => None
          | RiDone l5 => match gc builtin on_allowlist to_cpp_name l5 with GcFuel => None | GcDone v6 => Some v6 end
          end
      end
  end.

(** engine/src/conversion/mod.rs:165-192, inside convert: everything handed to code generation. *)
Definition pipeline (v : apivec) : option apivec := option_map append_ctype_information (to_gc v).
End Pipeline.
