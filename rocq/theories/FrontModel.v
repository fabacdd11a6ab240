(** The phases between parsing the output of bindgen and analysing functions:
    engine/src/conversion/analysis/tdef.rs, engine/src/conversion/analysis/pod/mod.rs,
    engine/src/conversion/analysis/replace_hopeless_typedef_targets.rs,
    engine/src/conversion/analysis/casts.rs and engine/src/conversion/analysis/allocators.rs, on APIs which
    carry what these phases read and write. *)
From Verif Require Import Base QNamesModel KnownTypesModel ApiModel NameCheckModel TypesModel CppTypesModel
  ConcreteNamesModel TypeConverterModel ByValueModel ConversionModel SynthNamesModel FnAnalysisModel SubclassGenModel.

(** engine/src/conversion/api.rs:209-212 [TypedefKind]: a [type] item with its number of generic parameters,
    or a [use] item; and the target. *)
Inductive td_kind := TdType (generics : nat) (target : ty) | TdUse (target : ty).
Definition td_target (k : td_kind) : ty := match k with TdType _ t | TdUse t => t end.

(** engine/src/conversion/api.rs:56-59 [StructDetails]: the struct bindgen wrote and whether a field is an
    rvalue reference. *)
Record struct_details := SD { sd_fields : list bindgen_field; sd_rvalue : bool; sd_generics : list string }.

(** engine/src/conversion/api.rs:359-466 [Api]. The analysis of a phase is [None] before that phase:
    [TypedefAnalysis] (engine/src/conversion/analysis/tdef.rs:29-32) is a kind and dependencies,
    [PodAnalysis] is ByValueModel's, [FnAnalysis] is FnAnalysisModel's. *)
Inductive xkind :=
| XForward (err : option (cpp_error * option err_ctx))
| XOpaqueTypedef (forward_declaration : bool)
| XConcrete (cpp_definition : string) (rs_definition : option ty)
| XStringConstructor
| XFunction (f : func) (pv : provenance) (an : option fn_analysis)
| XConst
| XTypedef (item : td_kind) (old_tyname : option qname) (an : option (td_kind * list qname))
| XEnum
| XStruct (d : struct_details) (an : option pod_analysis)
| XCType (typename : qname)
| XIgnored (err : cpp_error) (ctx : option err_ctx)
| XRustType
| XRustFn (deps : list qname)
| XRustSubclassFn (subclass : qname) (d : sub_fn)
| XSubclass (superclass : qname)
| XSubclassTraitItem (m : s_method)
| XExternCppType (pod opaque : bool).
Record xapi := XA { x_info : api_name; x_kind : xkind }.
Definition xname (x : xapi) : qname := an_name (x_info x).
Definition x_ignored (x : xapi) : bool := match x_kind x with XIgnored _ _ => true | _ => false end.

(** What the phases ask of the configuration, of the results of the parse callbacks and of other crates;
    [ac_fatal] is [check_for_fatal_attrs]. *)
Record acfg := AC {
  ac_blocked : string -> bool; ac_rust_type : string -> bool; ac_holder : string -> bool; ac_allow : string -> bool;
  ac_instantiable : list string; ac_blocklist : list string; ac_pods : list string;
  ac_lexes : string -> bool; ac_reserved : string -> bool; ac_builtin : string -> bool;
  ac_fatal : qname -> option cpp_error; ac_fuel : nat }.

Section Front.
Variable cfg : acfg.

(** engine/src/conversion/apivec.rs:52-76 [push]. The index of names is left out: it always holds
    the names of the vector (C01); c79_list_is_collection relates this to ApiVecModel. *)
Definition xmarker (n : qname) : xapi :=
  XA (AN n None) (XIgnored EDuplicateItems (Some (ctx_for_item (ac_builtin cfg) (qn_item n)))).
Definition xpush (v : list xapi) (x : xapi) : list xapi :=
  if qmem (xname x) (map xname v) then
    if x_ignored x then v else filter (fun y => negb (qn_eqb (xname y) (xname x))) v ++ [xmarker (xname x)]
  else v ++ [x].
(** engine/src/conversion/apivec.rs:90-95 [extend]. *)
Definition xextend (v l : list xapi) : list xapi := fold_left xpush l v.

(** engine/src/conversion/analysis/type_converter.rs:746-769 [find_types]. *)
Definition x_is_type (x : xapi) : bool :=
  match x_kind x with
  | XForward _ | XOpaqueTypedef _ | XConcrete _ _ | XTypedef _ _ _ | XEnum | XStruct _ _ | XSubclass _
  | XExternCppType _ _ | XRustType => true
  | _ => false
  end.
(** engine/src/conversion/analysis/type_converter.rs:123-137 [TypeConverter::new] with 654-705 [find_typedefs],
    [find_concrete_templates], [find_incomplete_types], [find_ignored_types]: the part which does not change, and the
    instantiations known at the start. Before the typedef phase typedefs have no target (725-729). *)
Definition tc_new (l : list xapi) : tc_env :=
  TCE (map xname (filter x_is_type l))
    (fold_left (fun m x => match x_kind x with XTypedef _ _ (Some (k, _)) => qset (xname x) (td_target k) m | _ => m end) l [])
    (flat_map (fun x => match x_kind x with XForward _ | XOpaqueTypedef true => [xname x] | _ => [] end) l)
    (map xname (filter x_ignored l))
    (name_map_from (map (fun x => (xname x, an_cpp (x_info x))) l))
    (ac_blocked cfg) (ac_rust_type cfg) (ac_holder cfg) (ac_lexes cfg) (ac_reserved cfg).
Definition tc_concretes (l : list xapi) : concretes :=
  find_concrete_templates (flat_map (fun x => match x_kind x with XConcrete d _ => [(d, xname x)] | _ => [] end) l).

(** engine/src/conversion/analysis/type_converter.rs:712-726 [add_analysis]: what conversions make are
    concrete types only. *)
Definition of_concrete (c : concrete_api) : xapi := let '(n, def, rs) := c in XA (AN n None) (XConcrete def (Some rs)).

(** [convert_apis] (engine/src/conversion/error_reporter.rs:58-190): an item is replaced by
    what [f] gives or, if that is an error, by an ignored item of its name. All errors of these phases have
    the context of the item. The state is what the closures capture. *)
Definition x_error (x : xapi) (e : cpp_error) : xapi :=
  XA (x_info x) (XIgnored e (Some (ctx_for_item (ac_builtin cfg) (qn_item (xname x))))).
Fixpoint x_convert {S} (f : S -> xapi -> S * out xapi) (s : S) (l : list xapi) : S * out (list xapi) :=
  match l with
  | [] => (s, OOk [])
  | x :: rest =>
      match f s x with
      | (s1, OPanic) => (s1, OPanic)
      | (s1, OFuel) => (s1, OFuel)
      | (s1, o) =>
          let y := match o with OOk y => y | OErr e => x_error x e | _ => x end in
          match x_convert f s1 rest with
          | (s2, OOk ys) => (s2, OOk (y :: ys))
          | r => r
          end
      end
  end.

(** ** Typedefs *)

(** engine/src/conversion/analysis/tdef.rs:86-133 [get_replacement_typedef]; the state is that of the type
    converter and the APIs made. [conv] is [convert_type] in a reference. *)
Definition get_replacement_typedef (conv : concretes -> ty -> concretes * out annotated)
    (s : concretes * list xapi) (x : xapi) (generics : nat) (target : ty) (old : option qname)
    : (concretes * list xapi) * out xapi :=
  if Nat.ltb 0 generics then (s, OErr (EOther "TypedefTakesGenericParameters"))
  else match ac_fatal cfg (xname x) with
  | Some e => (s, OErr e)
  | None =>
      match conv (fst s) target with
      | (cs, OErr e) => ((cs, snd s), OErr e)
      | (cs, OPanic) => ((cs, snd s), OPanic)
      | (cs, OFuel) => ((cs, snd s), OFuel)
      | (cs, OOk a) =>
          let same := match ann_ty a with
                      | TPath l i _ => match path_name l i with Some q => Some (qn_eqb q (xname x)) | None => None end
                      | _ => Some false
                      end in
          match same with
          | None => ((cs, snd s), OPanic)
          | Some true => ((cs, snd s), OErr (EOther "InfinitelyRecursiveTypedef"))
          | Some false =>
              ((cs, xextend (snd s) (map of_concrete (ann_extra a))),
               OOk (XA (x_info x) (XTypedef (TdType generics target) old (Some (TdType generics (ann_ty a), ann_deps a)))))
          end
      end
  end.
Definition tdef_item (env : tc_env) (s : concretes * list xapi) (x : xapi) : (concretes * list xapi) * out xapi :=
  match x_kind x with
  | XTypedef (TdType g t) old _ =>
      get_replacement_typedef (fun cs => convert_type (ac_fuel cfg) env (qn_ns (xname x)) cs WithinReference) s x g t old
  | XTypedef (TdUse t) old _ => (s, OOk (XA (x_info x) (XTypedef (TdUse t) old (Some (TdUse t, [])))))
  | _ => (s, OOk x)
  end.
(** engine/src/conversion/analysis/tdef.rs:46-84 [convert_typedef_targets]. *)
Definition convert_typedef_targets (l : list xapi) : out (list xapi) :=
  match x_convert (tdef_item (tc_new l)) (tc_concretes l, []) l with
  | ((_, extra), OOk r) => OOk (xextend (xextend [] r) extra)
  | (_, OErr e) => OErr e | (_, OPanic) => OPanic | (_, OFuel) => OFuel
  end.

(** ** Types held by value *)

(** The APIs as ByValueModel wants them. *)
Definition to_pod_api (x : xapi) : pod_api :=
  match x_kind x with
  | XTypedef _ _ (Some (k, _)) => PaTypedef (xname x) (td_target k)
  | XEnum | XExternCppType true _ => PaPod (xname x)
  | XStruct d _ => PaStruct (xname x) (map (fun f => (bf_name f, bf_ty f)) (sd_fields d))
  | _ => PaOther (xname x)
  end.
(** engine/src/conversion/analysis/pod/mod.rs:237-240, inside get_struct_field_types: the APIs made for the fields, which
    are kept when the struct is then refused. *)
Definition struct_extra (env : tc_env) (s : concretes * list xapi) (x : xapi) (d : struct_details) : list concrete_api :=
  match ac_fatal cfg (xname x) with
  | Some _ => []
  | None =>
      match get_struct_field_types
              (fun cs => convert_type (ac_fuel cfg) env (qn_ns (xname x)) cs (WithinStructField (sd_generics d)))
              (fst s) (sd_fields d) (FO [] [] [] [] []) with
      | (_, OOk fo) => fo_extra fo
      | _ => []
      end
  end.
(** engine/src/conversion/analysis/pod/mod.rs:133-140 [analyze_enum] and the closure for structs. *)
Definition pod_item (db : pod_db) (env : tc_env) (s : concretes * list xapi) (x : xapi) : (concretes * list xapi) * out xapi :=
  match x_kind x with
  | XStruct d _ =>
      match analyze_struct db
              (fun cs => convert_type (ac_fuel cfg) env (qn_ns (xname x)) cs (WithinStructField (sd_generics d)))
              (fst s) (ac_allow cfg) (ac_fatal cfg (xname x)) (xname x) (length (sd_generics d)) (sd_rvalue d) (sd_fields d) with
      | (cs, OOk (pa, made)) =>
          ((cs, xextend (snd s) (map of_concrete made)), OOk (XA (x_info x) (XStruct d (Some pa))))
      | (cs, OErr e) => ((cs, xextend (snd s) (map of_concrete (struct_extra env s x d))), OErr e)
      | (cs, OPanic) => ((cs, snd s), OPanic)
      | (cs, OFuel) => ((cs, snd s), OFuel)
      end
  | XEnum => (s, match ac_fatal cfg (xname x) with Some e => OErr e | None => OOk x end)
  | _ => (s, OOk x)
  end.
(** engine/src/conversion/analysis/pod/mod.rs:76-131 [analyze_pod_apis]. The second pass is over concrete
    types only and changes nothing. *)
Definition analyze_pod_apis (l : list xapi) : out (list xapi) :=
  match new_from_apis (ac_blocklist cfg) (ac_pods cfg) (map to_pod_api l) with
  | PoErr => OErr (EOther "UnsafePodType")
  | PoPanic => OPanic
  | PoFuel => OFuel
  | PoOk db =>
      match x_convert (pod_item db (tc_new l)) (tc_concretes l, []) l with
      | ((_, extra), OOk r) => OOk (xextend (xextend [] r) extra)
      | (_, OErr e) => OErr e | (_, OPanic) => OPanic | (_, OFuel) => OFuel
      end
  end.

(** ** Typedefs of what cannot be represented *)

(** engine/src/conversion/mod.rs:275-277 [is_nested] of engine/src/conversion/api.rs:527-529 [effective_cpp_name]. *)
Definition x_nested (x : xapi) : bool :=
  contains "::" (match an_cpp (x_info x) with Some c => c | None => qn_item (xname x) end).
Definition disjoint_q (l m : list qname) : bool := negb (existsb (fun q => qmem q m) l).
(** engine/src/conversion/analysis/replace_hopeless_typedef_targets.rs:51-94, one API. *)
Definition replace_hopeless (ignored forward : list qname) (x : xapi) : xapi :=
  match x_kind x with
  | XTypedef _ _ (Some (_, deps)) =>
      if negb (disjoint_q ignored deps) then
        if x_nested x
        then XA (x_info x) (XIgnored (EOther "NestedOpaqueTypedef") (Some (ctx_for_item (ac_builtin cfg) (qn_item (xname x)))))
        else XA (x_info x) (XOpaqueTypedef (negb (existsb (String.eqb (to_cpp_name (xname x))) (ac_instantiable cfg))))
      else if negb (disjoint_q forward deps) then XA (x_info x) (XOpaqueTypedef true)
      else x
  | XForward (Some (e, c)) => XA (x_info x) (XIgnored e c)
  | _ => x
  end.
(** engine/src/conversion/analysis/replace_hopeless_typedef_targets.rs:27-95
    [replace_hopeless_typedef_targets]. *)
Definition replace_hopeless_typedef_targets (l : list xapi) : list xapi :=
  let ignored := map xname (filter x_ignored l) in
  let forward := flat_map (fun x => match x_kind x with XForward (Some _) => [xname x] | _ => [] end) l in
  xextend [] (map (replace_hopeless ignored forward) l).

(** ** Casts *)

(** engine/src/conversion/analysis/casts.rs:77-120 [create_cast], for [ConstToConst]. *)
Definition create_cast (from to : qname) : xapi :=
  let n := name_for_cast from to ConstToConst in
  XA (AN n None)
    (XFunction (Func (qn_item n) [("this", TPtr false (to_type_path from))] false
                  (Some (TPath [] (marker_for_reference false) [TPtr false (to_type_path to)]))
                  None VisPublic None (Some from) None (Some (TsCast to)) (Some (CbCast, CkFunction)) None)
       PvOther None).
(** engine/src/conversion/analysis/casts.rs:34-49, inside add_casts, with 51-75 [create_casts], [cast_types]. *)
Definition casts_for (x : xapi) : list xapi :=
  match x_kind x with
  | XStruct _ (Some pa) => map (create_cast (xname x)) (pa_castable pa)
  | _ => []
  end.
(** engine/src/conversion/analysis/casts.rs:34-49 [add_casts]. *)
Definition add_casts (l : list xapi) : list xapi := xextend [] (flat_map (fun x => casts_for x ++ [x]) l).

(** ** Allocation *)

(** engine/src/conversion/analysis/allocators.rs:43-96 [create_alloc_and_free]. *)
Definition alloc_fn (q : qname) : xapi :=
  let n := get_alloc_name q in
  XA (AN n None)
    (XFunction (Func (qn_item n) [] false (Some (TPtr true (to_type_path q))) None VisPublic None None None
                  (Some (TsAlloc q)) (Some (CbAlloc q, CkFunction)) None) PvOther None).
Definition free_fn (q : qname) : xapi :=
  let n := get_free_name q in
  XA (AN n None)
    (XFunction (Func (qn_item n) [("arg0", TPtr true (to_type_path q))] false None None VisPublic None None None
                  (Some (TsFree q)) (Some (CbFree q, CkFunction)) None) PvOther None).
(** engine/src/conversion/analysis/allocators.rs:27-41, inside create_alloc_and_frees. *)
Definition allocs_for (x : xapi) : list xapi :=
  match x_kind x with
  | XStruct _ _ => [alloc_fn (xname x); free_fn (xname x)]
  | XSubclass _ => [alloc_fn (subclass_cpp (xname x)); free_fn (subclass_cpp (xname x))]
  | _ => []
  end.
(** engine/src/conversion/analysis/allocators.rs:27-41 [create_alloc_and_frees]. *)
Definition create_alloc_and_frees (l : list xapi) : list xapi := xextend [] (flat_map (fun x => allocs_for x ++ [x]) l).

(** engine/src/conversion/mod.rs:131-148, inside convert: from the parsed APIs to what function analysis
    starts from. *)
Definition front (l : list xapi) : out (list xapi) :=
  match convert_typedef_targets l with
  | OOk l1 =>
      match analyze_pod_apis l1 with
      | OOk l2 => OOk (create_alloc_and_frees (add_casts (replace_hopeless_typedef_targets l2)))
      | r => r
      end
  | r => r
  end.
End Front.
