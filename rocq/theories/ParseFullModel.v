(** engine/src/conversion/parse/parse_bindgen.rs and engine/src/conversion/parse/parse_foreign_mod.rs once more, on items
    with their types and signatures and making the APIs of FrontModel, so that the later phases can be run on the result;
    and what those phases ask of the configuration. ParseBindgenModel is the same code on items without their contents. *)
From Verif Require Import Base QNamesModel KnownTypesModel ApiModel ApiVecModel ErrorReporterModel NameCheckModel CallbacksModel ExternFunModel
  TypesModel CppTypesModel ConcreteNamesModel TypeConverterModel ByValueModel SynthNamesModel FnAnalysisModel SubclassGenModel
  FrontModel FnDriverModel CppGenModel RsGenModel.
From Verif Require ConfigModel ParseBindgenModel.
Module CF := ConfigModel.
Module PB := ParseBindgenModel.

(** An item of an [extern "C"] block. A function has its inputs, whether it is variadic, and its output. *)
Inductive pforeign :=
| PFFn (ident : string) (inputs : list (string * ty)) (variadic : bool) (output : option ty)
| PFStatic (ident : string)
| PFOther.
(** The [syn::Item]s which engine/src/conversion/parse/parse_bindgen.rs:207-387 [parse_item] distinguishes, as in
    ParseBindgenModel; a struct also has its generic parameters and the types of its fields, a type alias the number of its
    parameters and its target. Documentation and other attributes are left out. *)
Inductive pitem :=
| PForeignMod (items : list pforeign)
| PStruct (id : string) (generics : list string) (fields : list bindgen_field)
| PEnum (id : string)
| PImpl (self_ty : option string) (fns : list (string * option string))
| PMod (id : string) (items : list pitem)
| PModDecl (id : string)
| PUse (segs : list string) (tail : PB.use_end)
| PConst (id : string) (ty_last : option string)
| PType (id : string) (generics : nat) (target : ty)
| POther.

(** What the callbacks of autocxx-bindgen (CallbacksModel) say, in the words of FnAnalysisModel. *)
Definition vis_of (v : cb_visibility) : visibility :=
  match v with CbPublic => VisPublic | CbProtected => VisProtected | CbPrivate => VisPrivate end.
Definition virtual_of (v : cb_virtual) : virtualness := match v with CbVirtual => VtVirtual | CbPureVirtual => VtPure end.
Definition special_of (s : cb_special) : special :=
  match s with CbDefaultCtor => SmDefault | CbCopyCtor => SmCopy | CbMoveCtor => SmMove | CbDtor => SmDtor | CbAssign => SmAssign end.
Definition explicit_of (e : cb_explicit) : explicitness := match e with CbDeleted => ExDeleted | CbDefaulted => ExDefaulted end.
(** The same for the safety policy of parser/src/config.rs:33-37 [UnsafePolicy]. *)
Definition policy_of (p : CF.unsafe_policy) : unsafe_policy :=
  match p with
  | CF.AllFunctionsSafe => AllFunctionsSafe
  | CF.AllFunctionsUnsafe => AllFunctionsUnsafe
  | CF.ReferencesWrappedAllFunctionsSafe => ReferencesWrapped
  end.

(** What is given from outside: the tests on identifiers, what bindgen's callbacks recorded, the configuration and its hash, the
    dependencies of Rust functions (ExternFunModel), [force_wrapper_gen], the text of a type, and the fuel of the
    type converter (TypeConverterModel). *)
Record world := World {
  w_builtin : string -> bool; w_lexes : string -> bool; w_reserved : string -> bool; w_cb : results; w_cfg : CF.config;
  w_hash : CF.config -> string; w_fun_deps : CF.rust_fun -> ex (list qname); w_force : bool; w_tokens : ty -> string; w_fuel : nat }.

Section Parse.
Variable w : world.
Notation cfg := (w_cfg w).
Notation cb := (w_cb w).

(** What the phases after parsing ask of the configuration (parser/src/config.rs) and of the callbacks.
    [is_on_allowlist] panics if nothing was listed; here it then says no.
    [check_for_fatal_attrs] panics if no root module was reported; here it then finds nothing. Parsing has panicked before
    in that case if there was anything to ask about. *)
Definition front_cfg : acfg :=
  AC (CF.is_on_blocklist cfg) (CF.is_rust_type cfg) (CF.is_subclass_holder cfg)
    (fun n => match CF.is_on_allowlist (w_hash w) cfg n with CF.ROk b => b | _ => false end)
    (CF.cf_instantiable cfg) (CF.cf_blocklist cfg) (CF.cf_pod_requests cfg) (w_lexes w) (w_reserved w) (w_builtin w)
    (fun q => match PB.fatal_attrs (w_builtin w) cb q with Some (Some (e, _)) => Some e | _ => None end) (w_fuel w).
Definition driver_cfg : dcfg :=
  DC front_cfg (policy_of (CF.cf_policy cfg)) (CF.cf_exclude_utilities cfg) (CF.cf_exclude_impls cfg)
    (CF.is_on_constructor_blocklist cfg) (w_hash w cfg) (w_force w) (w_tokens w).

Notation push := (xpush front_cfg).
Notation extend := (xextend front_cfg).

(** engine/src/conversion/error_reporter.rs:25-52 [report_any_error], as in ErrorReporterModel. *)
Definition x_report (ns : list string) (v : list xapi) (r : res unit err_with_ctx) : list xapi :=
  match r with
  | Err (e, Some c) => push v (XA (AN (QN ns (ctx_id c)) None) (XIgnored e (Some c)))
  | _ => v
  end.

(** engine/src/conversion/parse/parse_foreign_mod.rs:31-45 [ParseForeignMod]: the functions with their original names, the
    receivers, and the errors. *)
Record xconv := XConv {
  xv_funcs : list (func * option string); xv_receivers : list (string * qname); xv_ignored : list xapi }.
(** engine/src/conversion/parse/parse_foreign_mod.rs:48-56 [new] *)
Definition xconv_new : xconv := XConv [] [] [].

(** engine/src/conversion/parse/parse_foreign_mod.rs:75-90, inside parse_foreign_item: the function, without its receiver. [None] is
    the panic of the lookups. *)
Definition func_of (q : qname) (inputs : list (string * ty)) (variadic : bool) (output : option ty) : option func :=
  match get_virtualness cb q, get_cpp_visibility cb q, special_member_kind cb q, get_deleted_or_defaulted cb q with
  | Ok v, Ok vis, Ok sp, Ok d =>
      Some (Func (qn_item q) inputs variadic output (option_map virtual_of v) (vis_of vis) (option_map special_of sp) None None None None
              (option_map explicit_of d))
  | _, _, _, _ => None
  end.
(** engine/src/conversion/parse/parse_foreign_mod.rs:70-105 [parse_foreign_item] *)
Definition x_foreign_item (ns : list string) (i : pforeign) (funcs : list (func * option string))
  : option (list (func * option string) * res unit err_with_ctx) :=
  match i with
  | PFFn id inputs variadic output =>
      let q := QN ns (strip_bindgen_original_suffix id) in
      match func_of q inputs variadic output, get_original_name cb q with
      | Some f, Ok o => Some (funcs ++ [(f, o)], Ok tt)
      | _, _ => None
      end
  | PFStatic id => Some (funcs, Err (PB.EStaticData, Some (ctx_for_item (w_builtin w) id)))
  | PFOther => Some (funcs, Err (PB.EUnexpectedForeignItem, None))
  end.
Fixpoint x_foreign_items (ns : list string) (l : list pforeign) (funcs : list (func * option string)) (extra : list xapi)
  : option (list (func * option string) * list xapi) :=
  match l with
  | [] => Some (funcs, extra)
  | i :: l' =>
      match x_foreign_item ns i funcs with
      | None => None
      | Some (funcs', r) => x_foreign_items ns l' funcs' (x_report ns extra r)
      end
  end.
(** engine/src/conversion/parse/parse_foreign_mod.rs:60-68 [convert_foreign_mod_items] *)
Definition x_foreign_mod (ns : list string) (l : list pforeign) (cv : xconv) : option xconv :=
  match x_foreign_items ns l (xv_funcs cv) [] with
  | None => None
  | Some (funcs, extra) => Some (XConv funcs (xv_receivers cv) (extend (xv_ignored cv) extra))
  end.
(** engine/src/conversion/parse/parse_foreign_mod.rs:109-128 [convert_impl_items] *)
Definition x_impl (ns : list string) (self_ty : option string) (fns : list (string * option string)) (cv : xconv) : xconv :=
  match self_ty with
  | None => cv
  | Some ty =>
      XConv (xv_funcs cv) (fold_left (fun m f => CF.minsert (PB.effective_fun_name f) (QN ns ty) m) fns (xv_receivers cv)) (xv_ignored cv)
  end.
(** engine/src/conversion/parse/parse_foreign_mod.rs:133-148 [finished] *)
Definition with_self (f : func) (s : option qname) : func :=
  Func (f_ident f) (f_inputs f) (f_variadic f) (f_output f) (f_virtual f) (f_vis f) (f_special f) s (f_this f) (f_trait f)
    (f_synthetic f) (f_deleted f).
Definition x_finished_fn (ns : list string) (receivers : list (string * qname)) (f : func * option string) : xapi :=
  XA (AN (QN ns (f_ident (fst f))) (snd f)) (XFunction (with_self (fst f) (sget (f_ident (fst f)) receivers)) PvOther None).
Definition x_finished (ns : list string) (cv : xconv) (v : list xapi) : list xapi :=
  extend (extend v (xv_ignored cv)) (map (x_finished_fn ns (xv_receivers cv)) (xv_funcs cv)).

(** The fields, as ParseBindgenModel sees them; engine/src/conversion/parse/parse_bindgen.rs:403-405 [spot_rvalue_reference_fields]. *)
Definition forget_field (f : bindgen_field) : PB.field := PB.Field (bf_name f) (type_is_reference (bf_ty f) true).
Definition spot_rvalue (fs : list bindgen_field) : bool := existsb (fun f => type_is_reference (bf_ty f) true) fs.

(** The [Item::Struct] case of engine/src/conversion/parse/parse_bindgen.rs:207-387 [parse_item]. *)
Definition x_struct (ns : list string) (id : string) (generics : list string) (fields : list bindgen_field) (v : list xapi)
  : option (list xapi * res unit err_with_ctx) :=
  if ends_with "__bindgen_vtable" id then Some (v, Ok tt)
  else
    match PB.api_name_qualified (w_builtin w) (w_lexes w) (w_reserved w) cb ns id with
    | None => None
    | Some (Err e) => Some (v, Err e)
    | Some (Ok name) =>
        if is_known_substitute_type (an_name name) then Some (v, Ok tt)
        else
          match PB.fatal_attrs (w_builtin w) cb (an_name name) with
          | None => None
          | Some err =>
              let a :=
                if ((match ns with [] => true | _ => false end) && CF.is_rust_type cfg id) || is_known_type (an_name name) then None
                else if PB.spot_field (map forget_field fields) "_unused"
                        || (PB.spot_field (map forget_field fields) "_address" && match err with Some _ => true | None => false end) then
                  let err :=
                    match err with
                    | None => if PB.is_nested name
                              then Some (PB.EForwardDeclaredNestedType, Some (ctx_for_item (w_builtin w) id)) else None
                    | Some e => Some e
                    end in
                  Some (XA name (XForward err))
                else Some (XA name (XStruct (SD fields (spot_rvalue fields) generics) None)) in
              match a with
              | Some a => Some (if CF.is_on_blocklist cfg (to_cpp_name (xname a)) then v else push v a, Ok tt)
              | None => Some (v, Ok tt)
              end
          end
    end.
(** The [Item::Use] case of engine/src/conversion/parse/parse_bindgen.rs:207-387 [parse_item]. *)
Definition x_use (ns : list string) (segs : list string) (tail : PB.use_end) (v : list xapi)
  : option (list xapi * res unit err_with_ctx) :=
  match tail with
  | PB.UName _ | PB.UOther => Some (v, Ok tt)
  | PB.URename old new =>
      if String.eqb new "bindgen_cchar16_t" then Some (v, Ok tt)
      else
        match segs with
        | s1 :: s2 :: rest =>
            if String.eqb s1 "self" && String.eqb s2 "super" then
              match path_name rest old with
              | None => None
              | Some old_tyname =>
                  if qn_eqb (QN ns new) old_tyname
                  then Some (v, Err (PB.EInfinitelyRecursiveTypedef, Some (ctx_for_item (w_builtin w) new)))
                  else
                    match PB.api_name cb ns new with
                    | None => None
                    | Some n => Some (push v (XA n (XTypedef (TdUse (TPath rest old [])) (Some old_tyname) None)), Ok tt)
                    end
              end
            else None
        | _ => None
        end
  end.
(** engine/src/conversion/parse/parse_bindgen.rs:207-387 [parse_item], without the [Item::Mod] case. *)
Definition x_leaf (it : pitem) (ns : list string) (v : list xapi) (cv : xconv) : option (list xapi * xconv * res unit err_with_ctx) :=
  match it with
  | PForeignMod l =>
      match x_foreign_mod ns l cv with
      | None => None
      | Some cv' => Some (v, cv', Ok tt)
      end
  | PStruct id generics fields =>
      match x_struct ns id generics fields v with
      | None => None
      | Some (v', r) => Some (v', cv, r)
      end
  | PEnum id =>
      match PB.api_name_qualified (w_builtin w) (w_lexes w) (w_reserved w) cb ns id with
      | None => None
      | Some (Err e) => Some (v, cv, Err e)
      | Some (Ok name) => Some (if CF.is_on_blocklist cfg (to_cpp_name (an_name name)) then v else push v (XA name XEnum), cv, Ok tt)
      end
  | PImpl self_ty fns => Some (v, x_impl ns self_ty fns cv, Ok tt)
  | PUse segs tail =>
      match x_use ns segs tail v with
      | None => None
      | Some (v', r) => Some (v', cv, r)
      end
  | PConst id ty_last =>
      match match ty_last with Some t => validate_ident_ok_for_cxx (w_lexes w) (w_reserved w) t | None => VOk end with
      | VPanic => None
      | VErr _ => Some (v, cv, Ok tt)
      | VOk =>
          match PB.api_name cb ns id with
          | None => None
          | Some n => Some (push v (XA n XConst), cv, Ok tt)
          end
      end
  | PType id generics target =>
      match PB.api_name cb ns id with
      | None => None
      | Some n => Some (push v (XA n (XTypedef (TdType generics target) None None)), cv, Ok tt)
      end
  | PMod _ _ | PModDecl _ => Some (v, cv, Ok tt)
  | POther => Some (v, cv, Err (PB.EUnexpectedItemInMod, None))
  end.
(** engine/src/conversion/parse/parse_bindgen.rs:207-387 [parse_item], with engine/src/conversion/parse/parse_bindgen.rs:192-205
    [parse_mod_items] for the nested modules. *)
Fixpoint x_item (it : pitem) (ns : list string) (v : list xapi) (cv : xconv) {struct it}
  : option (list xapi * xconv * res unit err_with_ctx) :=
  match it with
  | PMod id l =>
      let ns' := ns ++ [id] in
      match (fix go (l : list pitem) (v : list xapi) (cv : xconv) (more : list xapi) {struct l} : option (list xapi * xconv * list xapi) :=
               match l with
               | [] => Some (v, cv, more)
               | i :: l' =>
                   match x_item i ns' v cv with
                   | None => None
                   | Some (v', cv', r) => go l' v' cv' (x_report ns' more r)
                   end
               end) l v xconv_new [] with
      | None => None
      | Some (v', cv', more) => Some (x_finished ns' cv' (extend v' more), cv, Ok tt)
      end
  | _ => x_leaf it ns v cv
  end.
(** The loop of engine/src/conversion/parse/parse_bindgen.rs:192-205 [parse_mod_items]. *)
Fixpoint x_loop (ns : list string) (l : list pitem) (v : list xapi) (cv : xconv) (more : list xapi) : option (list xapi * xconv * list xapi) :=
  match l with
  | [] => Some (v, cv, more)
  | i :: l' =>
      match x_item i ns v cv with
      | None => None
      | Some (v', cv', r) => x_loop ns l' v' cv' (x_report ns more r)
      end
  end.
(** engine/src/conversion/parse/parse_bindgen.rs:192-205 [parse_mod_items] *)
Definition x_mod_items (ns : list string) (l : list pitem) (v : list xapi) : option (list xapi) :=
  match x_loop ns l v xconv_new [] with
  | None => None
  | Some (v', cv, more) => Some (x_finished ns cv (extend v' more))
  end.
(** engine/src/conversion/parse/parse_bindgen.rs:175-188 [find_items_in_root]. The outer [None] is the failed assertion. *)
Fixpoint x_root (l : list pitem) : option (option (list pitem)) :=
  match l with
  | [] => Some None
  | PMod id items :: _ => if String.eqb id "root" then Some (Some items) else None
  | PModDecl id :: l' => if String.eqb id "root" then x_root l' else None
  | _ :: l' => x_root l'
  end.

Fixpoint x_rust_funs (l : list CF.rust_fun) (v : list xapi) : PB.outcome (list xapi) :=
  match l with
  | [] => PB.ODone v
  | f :: l' =>
      match w_fun_deps w f with
      | XPanic => PB.OPanic
      | XErr e => PB.OFail (PB.PERustFun e)
      | XOk ds => x_rust_funs l' (push v (XA (AN (QN [] (CF.sig_ident (CF.rf_sig f))) None) (XRustFn ds)))
      end
  end.
(** engine/src/conversion/parse/parse_bindgen.rs:103-146 [add_apis_from_config] *)
Definition x_from_config (v : list xapi) : PB.outcome (list xapi) :=
  let v := extend v (map (fun s => XA (AN (QN [] (CF.sc_subclass s)) None) (XSubclass (new_from_cpp_name (CF.sc_superclass s))))
                       (CF.cf_subclasses cfg)) in
  match x_rust_funs (CF.cf_extern_rust_funs cfg) v with
  | PB.ODone v =>
      let v := extend v (map (fun p => XA (AN (QN [] (last p "")) None) XRustType) (PB.dedup (CF.cf_rust_types cfg))) in
      PB.ODone (extend v (map (fun kv => XA (AN (QN [] (snd kv)) None) (XConcrete (fst kv) None)) (CF.cf_concretes cfg)))
  | e => e
  end.
(** engine/src/conversion/parse/parse_bindgen.rs:407-421 [confirm_all_generate_directives_obeyed] *)
Definition x_unobeyed (v : list xapi) : option string :=
  find (fun d => negb (smem d (map (fun x => to_cpp_name (xname x)) v))) (CF.must_generate_list cfg).
(** engine/src/conversion/parse/parse_bindgen.rs:150-173 [replace_extern_cpp_types]. Simplified: the replacements come in the order of the
    configuration, not in that of a hash map. *)
Definition x_replacements : list (qname * xapi) :=
  fold_left (fun m kv =>
      let qn := new_from_cpp_name (fst kv) in
      qset qn (XA (AN qn None) (XExternCppType (smem (to_cpp_name qn) (CF.cf_pod_requests cfg)) (CF.et_opaque (snd kv)))) m)
    (CF.cf_externs cfg) [].
Definition x_replace_extern (v : list xapi) : list xapi :=
  extend (filter (fun x => match qget (xname x) x_replacements with Some _ => false | None => true end) v) (map snd x_replacements).
(** engine/src/conversion/parse/parse_bindgen.rs:82-99 [parse_items], with engine/src/conversion/utilities.rs:21-30 [generate_utilities] *)
Definition x_parse (items : list pitem) : PB.outcome (list xapi) :=
  match x_root items with
  | None => PB.OPanic
  | Some root =>
      let v := if CF.cf_exclude_utilities cfg then []
               else push [] (XA (AN (QN [] (CF.get_makestring_name (w_hash w) cfg)) None) XStringConstructor) in
      match x_from_config v with
      | PB.ODone v =>
          match x_mod_items [] (match root with Some l => l | None => [] end) v with
          | None => PB.OPanic
          | Some v =>
              match x_unobeyed v with
              | Some d => PB.OFail (PB.PEDidNotGenerateAnything d)
              | None => PB.ODone (x_replace_extern v)
              end
          end
      | e => e
      end
  end.

(** engine/src/conversion/mod.rs:109-212 [convert] up to the generation of code: from bindgen's items to the APIs code is generated for. [None] is
    an error, a panic or a lack of fuel. *)
Definition converted (items : list pitem) : option (list xapi) :=
  match x_parse items with
  | PB.ODone l => final_apis driver_cfg l
  | _ => None
  end.
(** engine/src/conversion/mod.rs:198-205, inside convert: what the Rust code generator asks of the configuration; [ctors] is what the analysis of
    constructors found. *)
Definition rust_options (ctors : qname -> bool * bool) : rs_options :=
  RO (policy_of (CF.cf_policy cfg)) (map new_from_cpp_name (CF.superclasses cfg)) (CF.get_makestring_name (w_hash w) cfg)
    (CF.cf_exclude_impls cfg) ctors.
End Parse.
