(** The generated Rust code as a whole: the items of the cxx bridge and of the modules shown to users. *)
From Verif Require Import Base QNamesModel KnownTypesModel ApiModel ApiVecModel TypesModel ByValueModel ConversionModel SynthNamesModel
  CppTypesModel UnqualifyModel FnAnalysisModel FnCodegenModel SubclassGenModel FrontModel FnDriverModel CppGenModel CalledModel.
From Verif Require NsModel.

(** What is in the [extern "C++"] block of the bridge. Documentation is left out, as everywhere below. *)
Inductive foreign :=
| FType (ns : list string) (cxx_name : option string) (id : string) (target : option (list string))
    (** with the attributes [namespace] and [cxx_name]; [type id = super::target::id] or [type id] *)
| FCType (id : string)                                       (** [type id = autocxx::id] *)
| FFn (ns : list string) (cxx_name : option string) (f : rust_fn)
| FHelper (id : string) (types : list string)                (** a function made for a subclass, naming these types *)
| FMakeString (id : string)
| FInclude (file : string).
(** In the [extern "Rust"] block. [RUser] stands for the signature of a user's function. *)
Inductive rust_decl := RType (id : string) | RFn (id : string) (types : list ty) | RUser (n : qname).
(** In a module shown to users. *)
Inductive item :=
| IUse (path : list string) (alias : option string)
| IUseUser (id : string)                                     (** [pub use a path given by the user as id] *)
| IOpaque (id : string) (generics : nat) (path : list string)(** a struct around the type at [path] *)
| IExternType (id type_id : string) (trivial : bool)         (** [impl cxx::ExternType for id] *)
| IError (id : string)                                       (** an empty struct which carries an error *)
| IFn (f : rust_fn)
| ISub (o : out_item)                                        (** the traits and implementations for subclasses *)
| IHolder (id sub : string)
| IPeer (cpp f : string)                                     (** [impl CppSubclassCppPeer for cpp], calling [f] *)
| IHelper (sub calls : string) (bridge : list string) (paths : list qname).
    (** an implementation for the user's [super::sub], calling the bridge's [calls], naming types of the bridge and of the output *)
(** At the top. *)
Inductive global := GString | GUser (n : qname) | GRemoveOwnership (id holder : string) | GUpcall (o : out_item).
(** An entry of an [impl] block. *)
Inductive entry := EFn (f : rust_fn) | EError (method : string).

(** engine/src/conversion/codegen_rs/mod.rs:1095-1107 [RsCodegenResult]. *)
Record rs_part := RP {
  rp_cpp : list foreign; rp_rust : list rust_decl; rp_impls : list (string * string); rp_global : list global;
  rp_impl : option (string * entry); rp_trait : option ((string * qname) * entry); rp_out : list item }.
Definition no_part : rs_part := RP [] [] [] [] None None [].

(** What the Rust code generator asks of the configuration, and of the analysis of constructors: whether a type can be moved and
    whether it can be destroyed. *)
Record rs_options := RO {
  ro_policy : unsafe_policy; ro_superclasses : list qname; ro_make_string : string; ro_exclude_impls : bool;
  ro_ctors : qname -> bool * bool }.

(** engine/src/conversion/codegen_rs/utils.rs:27-29 [find_output_mod_root]. *)
Definition find_output_mod_root (ns : list string) : list string := repeat "super" (List.length ns).
(** engine/src/conversion/codegen_rs/utils.rs:13-25 [generate_cxx_use_stmt]. *)
Definition generate_cxx_use_stmt (name : qname) (alias : option string) : item :=
  IUse (find_output_mod_root (qn_ns name) ++ ["cxxbridge"] ++ [qn_item name]) alias.
(** engine/src/types.rs:164-178 [get_bindgen_path_idents], [get_root_path_idents]. *)
Definition bindgen_path (name : qname) : list string := ["bindgen"; "root"] ++ qn_ns name ++ [qn_item name].
(** engine/src/conversion/codegen_rs/mod.rs:952-958 [generate_bindgen_use_stmt]. *)
Definition generate_bindgen_use_stmt (name : qname) : item := IUse (find_output_mod_root (qn_ns name) ++ bindgen_path name) None.
(** engine/src/conversion/codegen_rs/non_pod_struct.rs:70-95 [generate_opaque_type]. *)
Definition generate_opaque_type (name : qname) (num_generics : nat) : item :=
  IOpaque (qn_item name) num_generics (find_output_mod_root (qn_ns name) ++ bindgen_path name).
(** engine/src/conversion/codegen_rs/impl_item_creator.rs:12-41 [create_impl_items]. *)
Definition create_impl_items (o : rs_options) (id : string) (movable destroyable : bool) : list (string * string) :=
  if ro_exclude_impls o then []
  else (if destroyable then [("UniquePtr", id); ("SharedPtr", id); ("WeakPtr", id)] else []) ++
       (if movable then [("CxxVector", id)] else []).

Section Rs.
Variable o : rs_options.
Variable l : list xapi.
Let m : name_map := names_of_apis l.

(** engine/src/conversion/codegen_rs/mod.rs:960-974 [generate_extern_type_impl]. *)
Definition generate_extern_type_impl (kind : type_kind) (name : qname) : list item :=
  [IExternType (qn_item name) (map_name m name) (match kind with Pod => true | _ => false end)].
(** engine/src/conversion/codegen_rs/mod.rs:976-1033 [generate_cxxbridge_type]. *)
Definition generate_cxxbridge_type (name : qname) (references_bindgen : bool) : foreign :=
  let cpp := option_map new_from_cpp_name (qget name m) in
  FType (qn_ns name ++ match cpp with Some q => qn_ns q | None => [] end) (option_map qn_item cpp) (qn_item name)
    (if references_bindgen then Some (qn_ns name) else None).

(** engine/src/conversion/codegen_rs/mod.rs:255-274 [accumulate_superclass_methods]. *)
Definition methods_of (q : qname) : option (list s_method) :=
  if qmem q (ro_superclasses o) then
    Some (flat_map (fun x => match x_kind x with XSubclassTraitItem sm => if qn_eqb (sm_receiver sm) q then [sm] else [] | _ => [] end) l)
  else None.

(** engine/src/conversion/codegen_rs/mod.rs:753-835 [generate_type]. [None] is a panic. *)
Definition generate_type (name : qname) (kind : type_kind) (movable destroyable : bool) (num_generics : nat) : option rs_part :=
  match superclass_traits name (methods_of name) with
  | None => None
  | Some traits =>
      let traits := map ISub traits in
      match kind with
      | Pod | NonPod | Opaque =>
          let def := match kind with Pod => generate_bindgen_use_stmt name | _ => generate_opaque_type name num_generics end in
          if Nat.ltb 0 num_generics then Some (RP [] [] [] [] None None (traits ++ [def]))
          else Some (RP [generate_cxxbridge_type name true] [] (create_impl_items o (qn_item name) movable destroyable) [] None None
                       (traits ++ [def] ++ generate_extern_type_impl kind name))
      | Abstract =>
          if Nat.ltb 0 num_generics then Some no_part
          else Some (RP [generate_cxxbridge_type name false] [] (create_impl_items o (qn_item name) movable destroyable) [] None None
                       (traits ++ [generate_cxx_use_stmt name None]))
      end
  end.

(** engine/src/conversion/codegen_rs/mod.rs:1036-1057 [find_trivially_constructed_subclasses]. *)
Definition peer_ctors (trivial : bool) : list qname :=
  flat_map (fun x => match x_kind x with
    | XFunction _ (PvSubclassCtor sub t _) _ => if Bool.eqb t trivial then [sub] else []
    | _ => []
    end) l.
(** engine/src/conversion/codegen_rs/mod.rs:538-686 [generate_subclass]. *)
Definition generate_subclass_rs (sub sup : qname) : option rs_part :=
  let cpp := subclass_cpp sub in
  let c := qn_item cpp in
  let s := qn_item sup in
  let as_id := "As_" +++ s in
  let as_mut_id := "As_" +++ s +++ "_mut" in
  let as_unique := c +++ "_As_" +++ s +++ "_UniquePtr" in
  let trivial := qmem sub (peer_ctors true) && negb (qmem sub (peer_ctors false)) in
  match generate_subclass sub sup (methods_of sup) (trivial && match ro_policy o with AllFunctionsSafe => true | _ => false end) with
  | None => None
  | Some impls =>
      Some (RP [generate_cxxbridge_type cpp false; FHelper (sc_cpp_remove_ownership sub) [c]; FHelper as_id [c; s];
                FHelper as_mut_id [c; s]; FHelper as_unique [c; s]]
              [RType (sc_holder sub); RFn (sc_remove_ownership sub) [TPath [] (sc_holder sub) []]]
              (create_impl_items o c false true)
              [GRemoveOwnership (sc_remove_ownership sub) (sc_holder sub)] None None
              ([IUse ["cxxbridge"; c] None; IHolder (sc_holder sub) (qn_item sub); IPeer c (sc_cpp_remove_ownership sub)] ++
               map ISub impls ++
               [IHelper (qn_item sub) as_id [s] [sup]; IHelper (qn_item sub) as_mut_id [s] []; IHelper (qn_item sub) as_unique [c; s] []]))
  end.

(** engine/src/conversion/codegen_rs/mod.rs:688-740 [generate_subclass_fn]: the types told to cxx are those of the function without their
    namespaces. *)
Definition generate_subclass_fn_rs (name : qname) (d : sub_fn) : rs_part :=
  RP [] [RFn (qn_item name) (map (fun p => unqualify_type (snd p)) (sf_params d) ++ match sf_ret d with Some t => [unqualify_type t] | None => [] end)] []
    [GUpcall (generate_subclass_fn name d)] None None [].

(** engine/src/conversion/codegen_rs/mod.rs:1058-1079 [find_non_pod_types]. *)
Definition find_non_pod_types : list qname :=
  flat_map (fun x => match x_kind x with XStruct _ (Some pa) => match pa_kind pa with NonPod => [xname x] | _ => [] end | _ => [] end) l.
(** engine/src/conversion/analysis/fun/mod.rs:865-929, inside analyze_foreign_fn, and
    engine/src/conversion/analysis/fun/mod.rs:1531-1636 [trait_creation_details_for_synthetic_function], [generate_alloc_or_deallocate]:
    the trait which is implemented. That of a cast names the type it leads to; here it is told apart by the name of the function. *)
Definition trait_of (k : trait_method_kind) (fa : fn_analysis) : string :=
  match k with
  | TCopyConstructor => "autocxx::moveit::new::CopyNew"
  | TMoveConstructor => "autocxx::moveit::new::MoveNew"
  | TDestructor => "Drop"
  | TAlloc | TDealloc => "autocxx::moveit::MakeCppStorage"
  | TCast => "the cast of " +++ fa_bridge fa
  end.
(** engine/src/conversion/codegen_rs/fun_codegen.rs:88-221 [gen_function]: where the parts of FnCodegenModel's [gen_function] go. *)
Definition gen_function_rs (name : qname) (fa : fn_analysis) : option rs_part :=
  match gen_function find_non_pod_types fa with
  | None => None
  | Some g =>
      Some (RP (match o_bridge g with Some f => [FFn (namespace_attr name fa) (cxx_name_attr fa) f] | None => [] end) [] [] []
              (match o_wrapper g, fa_kind fa with Some f, FMethod _ q => Some (qn_item q, EFn f) | _, _ => None end)
              (match o_wrapper g, fa_kind fa with Some f, FTraitMethod k q => Some ((trait_of k fa, q), EFn f) | _, _ => None end)
              (match o_wrapper g, fa_kind fa with Some f, FFunction => [IFn f] | _, _ => [] end ++
               match o_reexport g with Some alias => [generate_cxx_use_stmt name alias] | None => [] end))
  end.

(** engine/src/conversion/codegen_rs/mod.rs:923-950 [generate_error_entry]. *)
Definition generate_error_entry (ctx : err_ctx) : rs_part :=
  match ctx with
  | CtxItem id | CtxSanitizedItem id => RP [] [] [] [] None None [IError id]
  | CtxMethod self_ty method => RP [] [] [] [] (Some (self_ty, EError method)) None []
  end.

(** engine/src/conversion/codegen_rs/mod.rs:376-536 [generate_rs_for_api], 907-918 [generate_extern_cpp_type]. *)
Definition generate_rs_for_api (x : xapi) : option rs_part :=
  let name := xname x in
  match x_kind x with
  | XStringConstructor => Some (RP [FMakeString (ro_make_string o)] [] [] [GString] None None [generate_cxx_use_stmt name (Some "make_string")])
  | XFunction _ _ (Some fa) => gen_function_rs name fa
  | XConst | XTypedef _ _ _ => Some (RP [] [] [] [] None None [generate_bindgen_use_stmt name])
  | XStruct _ (Some pa) => generate_type name (pa_kind pa) (fst (ro_ctors o name)) (snd (ro_ctors o name)) (pa_generics pa)
  | XEnum => generate_type name Pod true true 0
  | XConcrete _ _ => generate_type name Abstract false true 0
  | XForward _ | XOpaqueTypedef _ => generate_type name Abstract false false 0
  | XCType _ => Some (RP [FCType (qn_item name)] [] [] [] None None [])
  | XRustType => Some (RP [] [RType (qn_item name)] [] [GUser name] None None [])
  | XRustFn _ => Some (RP [] [RUser name] [] [GUser name] None None [])
  | XRustSubclassFn sub d => Some (generate_subclass_fn_rs name d)
  | XSubclass sup => generate_subclass_rs name sup
  | XExternCppType _ _ => Some (RP [generate_cxxbridge_type name true] [] [] [] None None [IUseUser (qn_item name)])
  | XIgnored _ (Some ctx) => Some (generate_error_entry ctx)
  | XIgnored _ None | XSubclassTraitItem _ => Some no_part
  | XFunction _ _ None | XStruct _ None => None
  end.

(** The whole of it: the implementations and the two blocks of the bridge, the items at the top, and the modules. *)
Record rs_file := RsF {
  rs_impls : list (string * string); rs_cpp : list foreign; rs_rust : list rust_decl; rs_global : list global;
  rs_out : list (NsModel.out item entry string (string * qname)) }.
End Rs.

Definition key_eqb (a b : string * qname) : bool := String.eqb (fst a) (fst b) && qn_eqb (snd a) (snd b).

(** engine/src/conversion/codegen_rs/mod.rs:153-253 [rs_codegen]. The parts of the [HashMap]s of [impl] blocks come in the order
    [order_ty] and [order_key]. [None] is a panic. *)
Definition rs_codegen (o : rs_options) order_ty order_key (include_list : list string) (header : option string) (l : list xapi) : option rs_file :=
  match all_some (map (generate_rs_for_api o l) l), bridge_includes include_list header l with
  | Some parts, COk incs =>
      match NsModel.generate_final_output_namespace String.eqb key_eqb order_ty order_key
              (combine (map xname l) (map (fun p => NsModel.RsResult (rp_out p) (rp_impl p) (rp_trait p)) parts)) with
      | Some out => Some (RsF (flat_map rp_impls parts) (flat_map rp_cpp parts ++ map FInclude incs) (flat_map rp_rust parts)
                            (flat_map rp_global parts) out)
      | None => None
      end
  | _, _ => None
  end.
