(** engine/src/conversion/parse/parse_bindgen.rs and engine/src/conversion/parse/parse_foreign_mod.rs: how
    the Rust module written by bindgen becomes the list of APIs. *)
From Verif Require Import Base ApiModel ApiVecModel ErrorReporterModel NameCheckModel KnownTypesModel
  QNamesModel CallbacksModel ConfigModel ExternFunModel.

(** ** The items *)

(** An item of an [extern "C"] block. Signatures, attributes and docs are left
    out: parsing copies them. *)
Inductive foreign_item :=
| FIFn (ident : string)
| FIStatic (ident : string)
| FIOther.

(** How the tree of a [use] item ends. *)
Inductive use_end :=
| UName (id : string)
| URename (old new : string)
| UOther.

(** A field of a struct: its name, if it has one, and whether its type is an
    rvalue reference (engine/src/conversion/parse/parse_bindgen.rs:403-405 [spot_rvalue_reference_fields]). *)
Record field := Field { f_ident : option string; f_rvalue : bool }.

(** The [syn::Item]s which engine/src/conversion/parse/parse_bindgen.rs:207-387 [parse_item] distinguishes.
    - [IImpl]: the last identifier of the self type if it is a path, then for
      each function its name and what engine/src/conversion/parse/parse_foreign_mod.rs:155-163 [get_called_function]
      finds in its body;
    - [IUse]: the leading segments and the end of the tree;
    - [IConst]: the last identifier of the constant's type if it is a path. *)
Inductive item :=
| IForeignMod (items : list foreign_item)
| IStruct (id : string) (fields : list field)
| IEnum (id : string)
| IImpl (self_ty : option string) (fns : list (string * option string))
| IMod (id : string) (items : list item)
| IModDecl (id : string)
| IUse (segs : list string) (tail : use_end)
| IConst (id : string) (ty_last : option string)
| IType (id : string)
| IOther.

(** ** Errors *)

(** The errors of this pass, all of engine/src/conversion/convert_error.rs:39-162 [ConvertErrorFromCpp]. *)
Definition EStaticData := EOther "StaticData".
Definition EUnexpectedForeignItem := EOther "UnexpectedForeignItem".
Definition EUnexpectedItemInMod := EOther "UnexpectedItemInMod".
Definition EInfinitelyRecursiveTypedef := EOther "InfinitelyRecursiveTypedef".
Definition EForwardDeclaredNestedType := EOther "ForwardDeclaredNestedType".
Definition EUnusedTemplateParam := EOther "UnusedTemplateParam".
Definition ENonPublicNestedType := EOther "NonPublicNestedType".

(** What engine/src/conversion/parse/parse_bindgen.rs:82-99 [parse_items] can end with. *)
Inductive parse_error := PERustFun (e : extern_err) | PEDidNotGenerateAnything (directive : string).
Inductive outcome (A : Type) := ODone (a : A) | OFail (e : parse_error) | OPanic.
Arguments ODone {A} a. Arguments OFail {A} e. Arguments OPanic {A}.

(** The first occurrence of each element: collecting into an [IndexSet]. *)
Fixpoint dedup_aux (seen l : list rust_path) : list rust_path :=
  match l with
  | [] => []
  | x :: l' => if in_dec (list_eq_dec string_dec) x seen then dedup_aux seen l' else x :: dedup_aux (x :: seen) l'
  end.
Definition dedup (l : list rust_path) : list rust_path := dedup_aux [] l.

(** What is read of a struct before the analysis: nothing. *)
Definition unanalyzed_struct : struct_info :=
  {| st_kind := NonPod; st_bases := []; st_field_deps := []; st_field_def_deps := []; st_num_generics := 0;
     st_ctor_deps := [] |}.

(** A function before the analysis. Only the receiver ([self_ty]) is kept, as the kind a
    plain function or method of that type; the facts looked up for it (virtualness,
    visibility and so on) are in CallbacksModel. *)
Definition unanalyzed_fn (id : string) (self_ty : option qname) : fn_info :=
  {| fn_ident := id;
     fn_kind_of := match self_ty with Some q => FMethod MNormal q | None => FFunction end;
     fn_bridge_name := id; fn_rust_name := id; fn_params := []; fn_deps := []; fn_ignore := None;
     fn_external := false; fn_has_wrapper := false |}.

Section Parse.
Variable builtin : string -> bool.
Variable lexes : string -> bool.
Variable reserved : string -> bool.
(** What bindgen's callbacks recorded. *)
Variable cb : results.
Variable cfg : config.
(** The hash of a configuration (ConfigModel). *)
Variable hash : config -> string.
(** engine/src/conversion/parse/extern_fun_signatures.rs [assemble_extern_fun_deps] for the
    signature of a function, which ExternFunModel models from a parsed signature. *)
Variable fun_deps : rust_fun -> ex (list qname).

Notation push := (av_push builtin).
Notation extend := (av_extend builtin).
Notation validate := (validate_ident_ok_for_cxx lexes reserved).

(** engine/src/conversion/parse/parse_bindgen.rs:45-49 [api_name]. [None] is the panic of the lookup. *)
Definition api_name (ns : list string) (id : string) : option api_name :=
  match get_original_name cb (QN ns id) with
  | Ok o => Some (AN (QN ns id) o)
  | Err _ => None
  end.

(** engine/src/conversion/parse/parse_bindgen.rs:51-66 [api_name_qualified] *)
Definition api_name_qualified (ns : list string) (id : string) : option (res ApiModel.api_name err_with_ctx) :=
  match validate id with
  | VPanic => None
  | VErr e => Some (Err (e, Some (ctx_for_item builtin id)))
  | VOk => match api_name ns id with Some n => Some (Ok n) | None => None end
  end.

(** engine/src/conversion/mod.rs:281-301 [check_for_fatal_attrs], [.err()] of it. *)
Definition fatal_attrs (n : qname) : option (option err_with_ctx) :=
  match discards_template_param cb n with
  | Err _ => None
  | Ok true => Some (Some (EUnusedTemplateParam, Some (ctx_for_item builtin (qn_item n))))
  | Ok false =>
      match get_cpp_visibility cb n with
      | Err _ => None
      | Ok CbPublic => Some None
      | Ok _ => Some (Some (ENonPublicNestedType, Some (ctx_for_item builtin (qn_item n))))
      end
  end.

(** engine/src/conversion/mod.rs:275-277 [is_nested] of engine/src/conversion/mod.rs:241-243 [from_api_details]. *)
Definition is_nested (n : ApiModel.api_name) : bool :=
  contains "::" (match an_cpp n with Some s => s | None => qn_item (an_name n) end).

(** engine/src/conversion/parse/parse_bindgen.rs:397-401 [spot_field] *)
Definition spot_field (fs : list field) (id : string) : bool :=
  existsb (fun f => match f_ident f with Some i => String.eqb i id | None => false end) fs.

(** engine/src/conversion/parse/parse_foreign_mod.rs:31-45 [ParseForeignMod]; of a function to convert
    only the identifier and original name are kept. *)
Record conv := Conv {
  cv_funcs : list (string * option string);
  cv_receivers : list (string * qname);
  cv_ignored : apivec }.
(** engine/src/conversion/parse/parse_foreign_mod.rs:48-56 [new] *)
Definition conv_new : conv := Conv [] [] av_new.

(** engine/src/conversion/parse/parse_foreign_mod.rs:70-105 [parse_foreign_item] *)
Definition parse_foreign_item (ns : list string) (i : foreign_item) (funcs : list (string * option string))
  : option (list (string * option string) * res unit err_with_ctx) :=
  match i with
  | FIFn id =>
      let id' := strip_bindgen_original_suffix id in
      match get_original_name cb (QN ns id') with
      | Ok o => Some (funcs ++ [(id', o)], Ok tt)
      | Err _ => None
      end
  | FIStatic id => Some (funcs, Err (EStaticData, Some (ctx_for_item builtin id)))
  | FIOther => Some (funcs, Err (EUnexpectedForeignItem, None))
  end.

Fixpoint parse_foreign_items (ns : list string) (l : list foreign_item) (funcs : list (string * option string))
    (extra : apivec) : option (list (string * option string) * apivec) :=
  match l with
  | [] => Some (funcs, extra)
  | i :: l' =>
      match parse_foreign_item ns i funcs with
      | None => None
      | Some (funcs', r) => parse_foreign_items ns l' funcs' (fst (report_any_error builtin ns extra r))
      end
  end.

(** engine/src/conversion/parse/parse_foreign_mod.rs:60-68 [convert_foreign_mod_items] *)
Definition convert_foreign_mod_items (ns : list string) (l : list foreign_item) (cv : conv) : option conv :=
  match parse_foreign_items ns l (cv_funcs cv) av_new with
  | None => None
  | Some (funcs, extra) => Some (Conv funcs (cv_receivers cv) (fst (av_append builtin (cv_ignored cv) extra)))
  end.

(** engine/src/conversion/parse/parse_foreign_mod.rs:109-128 [convert_impl_items] *)
Definition effective_fun_name (f : string * option string) : string :=
  strip_bindgen_original_suffix (match snd f with Some c => c | None => fst f end).
Definition convert_impl_items (ns : list string) (self_ty : option string) (fns : list (string * option string))
    (cv : conv) : conv :=
  match self_ty with
  | None => cv
  | Some ty =>
      Conv (cv_funcs cv)
        (fold_left (fun m f => minsert (effective_fun_name f) (QN ns ty) m) fns (cv_receivers cv))
        (cv_ignored cv)
  end.

(** engine/src/conversion/parse/parse_foreign_mod.rs:133-148 [finished] *)
Definition finished_fn (ns : list string) (receivers : list (string * qname)) (f : string * option string) : api :=
  API (AN (QN ns (fst f)) (snd f)) (KFunction (unanalyzed_fn (fst f) (sget (fst f) receivers))).
Definition finished (ns : list string) (cv : conv) (apis : apivec) : apivec :=
  extend (fst (av_append builtin apis (cv_ignored cv))) (map (finished_fn ns (cv_receivers cv)) (cv_funcs cv)).

(** The [Item::Struct] case of engine/src/conversion/parse/parse_bindgen.rs:207-387 [parse_item]. *)
Definition parse_struct (ns : list string) (id : string) (fields : list field) (apis : apivec)
  : option (apivec * res unit err_with_ctx) :=
  if ends_with "__bindgen_vtable" id then Some (apis, Ok tt)
  else
    match api_name_qualified ns id with
    | None => None
    | Some (Err e) => Some (apis, Err e)
    | Some (Ok name) =>
        if is_known_substitute_type (an_name name) then Some (apis, Ok tt)
        else
          match fatal_attrs (an_name name) with
          | None => None
          | Some err =>
              let a :=
                if ((match ns with [] => true | _ => false end) && is_rust_type cfg id)
                   || is_known_type (an_name name) then None
                else if spot_field fields "_unused"
                        || (spot_field fields "_address" && match err with Some _ => true | None => false end) then
                  let err :=
                    match err with
                    | None => if is_nested name
                              then Some (EForwardDeclaredNestedType, Some (ctx_for_item builtin id)) else None
                    | Some e => Some e
                    end in
                  Some (API name (KForwardDeclaration err))
                else Some (API name (KStruct unanalyzed_struct)) in
              match a with
              | Some a => Some (if is_on_blocklist cfg (to_cpp_name (aname a)) then apis else push apis a, Ok tt)
              | None => Some (apis, Ok tt)
              end
          end
    end.

(** The [Item::Use] case of engine/src/conversion/parse/parse_bindgen.rs:207-387 [parse_item]. *)
Definition parse_use (ns : list string) (segs : list string) (tail : use_end) (apis : apivec)
  : option (apivec * res unit err_with_ctx) :=
  match tail with
  | UName _ | UOther => Some (apis, Ok tt)
  | URename old new =>
      if String.eqb new "bindgen_cchar16_t" then Some (apis, Ok tt)
      else
        match segs with
        | s1 :: s2 :: rest =>
            if String.eqb s1 "self" && String.eqb s2 "super" then
              match from_type_path (rest ++ [old]) with
              | None => None
              | Some old_tyname =>
                  if qn_eqb (QN ns new) old_tyname
                  then Some (apis, Err (EInfinitelyRecursiveTypedef, Some (ctx_for_item builtin new)))
                  else
                    match api_name ns new with
                    | None => None
                    | Some n => Some (push apis (API n (KTypedef (Some old_tyname) [])), Ok tt)
                    end
              end
            else None
        | _ => None
        end
  end.

(** engine/src/conversion/parse/parse_bindgen.rs:207-387 [parse_item], without the [Item::Mod] case. *)
Definition parse_leaf (it : item) (ns : list string) (apis : apivec) (cv : conv)
  : option (apivec * conv * res unit err_with_ctx) :=
  match it with
  | IForeignMod l =>
      match convert_foreign_mod_items ns l cv with
      | None => None
      | Some cv' => Some (apis, cv', Ok tt)
      end
  | IStruct id fields =>
      match parse_struct ns id fields apis with
      | None => None
      | Some (apis', r) => Some (apis', cv, r)
      end
  | IEnum id =>
      match api_name_qualified ns id with
      | None => None
      | Some (Err e) => Some (apis, cv, Err e)
      | Some (Ok name) =>
          Some (if is_on_blocklist cfg (to_cpp_name (an_name name)) then apis else push apis (API name KEnum), cv, Ok tt)
      end
  | IImpl self_ty fns => Some (apis, convert_impl_items ns self_ty fns cv, Ok tt)
  | IUse segs tail =>
      match parse_use ns segs tail apis with
      | None => None
      | Some (apis', r) => Some (apis', cv, r)
      end
  | IConst id ty_last =>
      match match ty_last with Some t => validate t | None => VOk end with
      | VPanic => None
      | VErr _ => Some (apis, cv, Ok tt)
      | VOk =>
          match api_name ns id with
          | None => None
          | Some n => Some (push apis (API n KConst), cv, Ok tt)
          end
      end
  | IType id =>
      match api_name ns id with
      | None => None
      | Some n => Some (push apis (API n (KTypedef None [])), cv, Ok tt)
      end
  | IMod _ _ | IModDecl _ => Some (apis, cv, Ok tt)
  | IOther => Some (apis, cv, Err (EUnexpectedItemInMod, None))
  end.

(** engine/src/conversion/parse/parse_bindgen.rs:207-387 [parse_item], with engine/src/conversion/parse/parse_bindgen.rs:192-205
    [parse_mod_items] for the nested modules. *)
Fixpoint parse_item (it : item) (ns : list string) (apis : apivec) (cv : conv) {struct it}
  : option (apivec * conv * res unit err_with_ctx) :=
  match it with
  | IMod id l =>
      let ns' := ns ++ [id] in
      match (fix go (l : list item) (apis : apivec) (cv : conv) (more : apivec) {struct l} : option (apivec * conv * apivec) :=
               match l with
               | [] => Some (apis, cv, more)
               | i :: l' =>
                   match parse_item i ns' apis cv with
                   | None => None
                   | Some (apis', cv', r) => go l' apis' cv' (fst (report_any_error builtin ns' more r))
                   end
               end) l apis conv_new av_new with
      | None => None
      | Some (apis', cv', more) => Some (finished ns' cv' (fst (av_append builtin apis' more)), cv, Ok tt)
      end
  | _ => parse_leaf it ns apis cv
  end.

(** The loop of engine/src/conversion/parse/parse_bindgen.rs:192-205 [parse_mod_items]. *)
Fixpoint parse_loop (ns : list string) (l : list item) (apis : apivec) (cv : conv) (more : apivec)
  : option (apivec * conv * apivec) :=
  match l with
  | [] => Some (apis, cv, more)
  | i :: l' =>
      match parse_item i ns apis cv with
      | None => None
      | Some (apis', cv', r) => parse_loop ns l' apis' cv' (fst (report_any_error builtin ns more r))
      end
  end.

(** engine/src/conversion/parse/parse_bindgen.rs:192-205 [parse_mod_items] *)
Definition parse_mod_items (ns : list string) (l : list item) (apis : apivec) : option apivec :=
  match parse_loop ns l apis conv_new av_new with
  | None => None
  | Some (apis', cv, more) => Some (finished ns cv (fst (av_append builtin apis' more)))
  end.

(** engine/src/conversion/parse/parse_bindgen.rs:175-188 [find_items_in_root]. The outer [None] is the failed assertion. *)
Fixpoint find_items_in_root (l : list item) : option (option (list item)) :=
  match l with
  | [] => Some None
  | IMod id items :: _ => if String.eqb id "root" then Some (Some items) else None
  | IModDecl id :: l' => if String.eqb id "root" then find_items_in_root l' else None
  | _ :: l' => find_items_in_root l'
  end.

(** engine/src/conversion/utilities.rs:21-30 [generate_utilities] *)
Definition generate_utilities (apis : apivec) : apivec :=
  push apis (API (AN (QN [] (get_makestring_name hash cfg)) None) KStringConstructor).

Fixpoint add_rust_funs (l : list rust_fun) (apis : apivec) : outcome apivec :=
  match l with
  | [] => ODone apis
  | f :: l' =>
      match fun_deps f with
      | XPanic => OPanic
      | XErr e => OFail (PERustFun e)
      | XOk ds => add_rust_funs l' (push apis (API (AN (QN [] (sig_ident (rf_sig f))) None) (KRustFn ds)))
      end
  end.

(** engine/src/conversion/parse/parse_bindgen.rs:103-146 [add_apis_from_config]. The [unwrap] in
    parser/src/path.rs:29-31 [get_final_ident] is not modelled: no path is empty. *)
Definition add_apis_from_config (apis : apivec) : outcome apivec :=
  let apis := extend apis (map (fun s => API (AN (QN [] (sc_subclass s)) None)
                                           (KSubclass (new_from_cpp_name (sc_superclass s)))) (cf_subclasses cfg)) in
  match add_rust_funs (cf_extern_rust_funs cfg) apis with
  | ODone apis =>
      let apis := extend apis (map (fun p => API (AN (QN [] (last p "")) None) KRustType) (dedup (cf_rust_types cfg))) in
      ODone (extend apis (map (fun kv => API (AN (QN [] (snd kv)) None) (KConcreteType (fst kv))) (cf_concretes cfg)))
  | e => e
  end.

(** engine/src/conversion/parse/parse_bindgen.rs:407-421 [confirm_all_generate_directives_obeyed]: the first directive
    which matches nothing. *)
Definition unobeyed (apis : apivec) : option string :=
  find (fun d => negb (smem d (map (fun a => to_cpp_name (aname a)) (av_apis apis)))) (must_generate_list cfg).

(** engine/src/conversion/parse/parse_bindgen.rs:150-173 [replace_extern_cpp_types] *)
Definition replacements : list (qname * api) :=
  fold_left (fun m kv =>
      let qn := new_from_cpp_name (fst kv) in
      qset qn (API (AN qn None) (KExternCppType (smem (to_cpp_name qn) (cf_pod_requests cfg)))) m)
    (cf_externs cfg) [].
Definition replace_extern_cpp_types (apis : apivec) : apivec :=
  extend (av_retain (fun a => match qget (aname a) replacements with Some _ => false | None => true end) apis)
    (map snd replacements).

(** engine/src/conversion/parse/parse_bindgen.rs:82-99 [parse_items] *)
Definition parse_items (items : list item) : outcome apivec :=
  match find_items_in_root items with
  | None => OPanic
  | Some root =>
      let apis := if cf_exclude_utilities cfg then av_new else generate_utilities av_new in
      match add_apis_from_config apis with
      | ODone apis =>
          match parse_mod_items [] (match root with Some l => l | None => [] end) apis with
          | None => OPanic
          | Some apis =>
              match unobeyed apis with
              | Some d => OFail (PEDidNotGenerateAnything d)
              | None => ODone (replace_extern_cpp_types apis)
              end
          end
      | e => e
      end
  end.
End Parse.
