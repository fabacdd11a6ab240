(** The driver of function analysis, engine/src/conversion/analysis/fun/mod.rs:303-341 and 2051-2196, on the APIs of FrontModel,
    and the whole of engine/src/conversion/mod.rs:109-212 [convert] up to the generation of code. *)
From Verif Require Import Base QNamesModel KnownTypesModel ApiModel ApiVecModel NameCheckModel TypesModel CppTypesModel
  ConcreteNamesModel TypeConverterModel ByValueModel ConversionModel SynthNamesModel TrackersModel FnAnalysisModel
  SubclassGenModel DepthFirstModel FrontModel PipelineModel.
From Verif Require ImplicitCtorsModel.
Module IC := ImplicitCtorsModel.

(** What function analysis asks of the configuration besides what FrontModel's phases ask: the safety policy,
    [exclude_utilities], [exclude_impls], [is_on_constructor_blocklist], the hash in names, [force_wrapper_gen];
    [dc_tokens] is the text of a type, by which signatures are compared. *)
Record dcfg := DC {
  dc_front : acfg; dc_policy : unsafe_policy; dc_no_utilities : bool; dc_exclude_impls : bool;
  dc_ctor_blocked : string -> bool; dc_hash : string; dc_force_wrapper : bool; dc_tokens : ty -> string }.

Section Driver.
Variable d : dcfg.

(** engine/src/conversion/analysis/fun/mod.rs:342-370 [build_pod_safe_type_set]. *)
Definition x_pod_safe (l : list xapi) : list qname :=
  flat_map (fun x => match x_kind x with
                     | XStruct _ (Some pa) => match pa_kind pa with Pod => [xname x] | _ => [] end
                     | XEnum | XExternCppType true _ => [xname x]
                     | _ => []
                     end) l
  ++ flat_map (fun p => match snd p with Some true => [fst p] | _ => [] end) pod_safe_types.
(** engine/src/conversion/analysis/fun/mod.rs:374-391 [build_correctly_sized_type_set]. *)
Definition x_correctly_sized (l : list xapi) : list qname :=
  flat_map (fun x => match x_kind x with XStruct _ _ | XEnum | XExternCppType _ false => [xname x] | _ => [] end) l
  ++ moveit_safe_types.
(** engine/src/conversion/analysis/fun/mod.rs:393-403 [build_generic_type_set]. *)
Definition x_generic (l : list xapi) : list qname :=
  flat_map (fun x => match x_kind x with XStruct _ (Some pa) => if Nat.ltb 0 (pa_generics pa) then [xname x] else [] | _ => [] end) l.
(** engine/src/conversion/analysis/fun/mod.rs:405-419 [build_types_in_anonymous_namespace]. *)
Definition x_anonymous (l : list xapi) : list qname :=
  flat_map (fun x => match x_kind x with XStruct _ (Some pa) => if pa_anon pa then [xname x] else [] | _ => [] end) l.
(** engine/src/conversion/mod.rs:271-273 [final_segment_if_any]: what follows the last [::]. *)
Fixpoint final_segment_if_any (s : string) : option string :=
  match s with
  | String _ r =>
      match final_segment_if_any r with
      | Some x => Some x
      | None => match s with String ":" (String ":" t) => Some t | _ => None end
      end
  | EmptyString => None
  end.
(** engine/src/conversion/api.rs:251-253 [cpp_name] with engine/src/conversion/mod.rs:231-243
    [from_cpp_name_and_rust_name], [from_api_details]. *)
Definition effective_cpp_name (n : api_name) : string := match an_cpp n with Some c => c | None => qn_item (an_name n) end.
(** engine/src/conversion/analysis/fun/mod.rs:423-433 [build_nested_type_map]. *)
Definition x_nested_map (l : list xapi) : list (qname * string) :=
  fold_left (fun m x => match x_kind x with
                        | XStruct _ _ | XEnum =>
                            match final_segment_if_any (effective_cpp_name (x_info x)) with
                            | Some s => qset (xname x) s m
                            | None => m
                            end
                        | _ => m
                        end) l [].

(** engine/src/conversion/analysis/fun/mod.rs:303-325, inside analyze_functions: the parts of the analyser
    which do not change, and its state at the start. *)
Definition x_env (l : list xapi) : fn_env :=
  FE (tc_new (dc_front d) l) (dc_policy d) (dc_no_utilities d) (x_pod_safe l) (x_correctly_sized l) (x_nested_map l)
    (x_generic l) (x_anonymous l) (ac_allow (dc_front d)) (dc_hash d) (dc_force_wrapper d) (ac_builtin (dc_front d))
    (ac_fuel (dc_front d)).
Definition x_start (l : list xapi) : fn_state := FS (tc_concretes l) [] [] [].

(** The APIs as SubclassGenModel wants them, and back. *)
Definition to_sapi (x : xapi) : sapi :=
  match x_kind x with
  | XFunction f pv (Some fa) => SFunction (x_info x) f fa pv
  | XSubclass sup => SSubclass (xname x) sup
  | _ => SOther (xname x)
  end.
Definition of_sapi (s : sapi) : xapi :=
  match s with
  | SFunction n f fa pv => XA n (XFunction f pv (Some fa))
  | STraitItem n m => XA (AN n None) (XSubclassTraitItem m)
  | SSubclassFn n sub sf => XA (AN n None) (XRustSubclassFn sub sf)
  | SSubclass n sup => XA (AN n None) (XSubclass sup)
  | SType n _ _ | SOther n => XA (AN n None) XConst
  end.

(** engine/src/conversion/analysis/fun/mod.rs:582-683 [analyze_foreign_fn_and_subclasses]: the items are collected before they are
    added to the rest. [subs] are the subclasses found at the start. *)
Definition fn_items (env : fn_env) (subs : list sapi) (name : api_name) (f : func) (existing : list qname)
    : M (list xapi * list qname) :=
  do (l, ex) <- analyze_foreign_fn_and_subclasses env subs name f existing;
  ret (xextend (dc_front d) [] (map of_sapi l), ex).

(** engine/src/conversion/analysis/fun/mod.rs:326-334, inside analyze_functions: [convert_apis] on the
    functions. The closure returns no error. *)
Fixpoint fn_pass (env : fn_env) (subs : list sapi) (l : list xapi) (existing : list qname) : M (list xapi * list qname) :=
  match l with
  | [] => ret ([], existing)
  | x :: rest =>
      do (l1, ex1) <- match x_kind x with
                      | XFunction f _ _ => fn_items env subs (x_info x) f existing
                      | _ => ret ([x], existing)
                      end;
      do (l2, ex2) <- fn_pass env subs rest ex1;
      ret (l1 ++ l2, ex2)
  end.

(** ** Special members *)

Definition ic_vis (v : visibility) : IC.cpp_vis :=
  match v with VisPublic => IC.VPublic | VisProtected => IC.VProtected | VisPrivate => IC.VPrivate end.
(** What engine/src/conversion/analysis/fun/implicit_constructors.rs:575-700 [find_explicit_items] reads of a
    function, with 702-710 [any_input_is_rvalue_reference]. *)
Definition to_sm_fn (x : xapi) : list IC.sm_fn :=
  match x_kind x with
  | XFunction f _ (Some fa) =>
      let sm q k := [IC.SmFn q k (match f_special f with Some SmAssign => true | _ => false end)
                       (match fa_ignore fa with None | Some (EOther "AssignmentOperator", _) => true | _ => false end)
                       (existsb (fun p => type_is_reference (snd p) true) (f_inputs f))
                       (match fa_details fa with a :: _ => option_map snd (a_self a) | [] => None end)
                       (match f_deleted f with Some ExDeleted => true | _ => false end) (ic_vis (f_vis f))] in
      match fa_kind fa with
      | FMethod (MConstructor b) q => sm q (IC.SkConstructor b)
      | FMethod _ q => sm q IC.SkOtherMethod
      | FTraitMethod t q => sm q (IC.SkTrait t)
      | FFunction => []
      end
  | _ => []
  end.
Definition to_ic_struct (x : xapi) : list IC.ic_struct :=
  match x_kind x with
  | XStruct sd (Some pa) =>
      [IC.IcStruct (xname x) (pa_kind pa) (pa_bases pa) (pa_fields pa) (pa_generics pa) (pa_anon pa) (sd_rvalue sd)]
  | _ => []
  end.
(** engine/src/conversion/analysis/fun/mod.rs:2325-2342 [field_and_base_deps]. *)
Definition x_fbdeps (x : xapi) : list qname :=
  match x_kind x with XStruct _ (Some pa) => pa_field_def_deps pa ++ pa_bases pa | _ => [] end.
(** engine/src/conversion/analysis/fun/implicit_constructors.rs:179-573 [find_constructors_present]; [None] is
    a panic. *)
Definition x_constructors (l : list xapi) : option (list (qname * IC.items)) :=
  match fields_and_bases_first xapi xname x_fbdeps l with
  | TDone o =>
      IC.find_constructors_present (flat_map to_sm_fn l)
        (flat_map (fun x => match x_kind x with XEnum => [xname x] | _ => [] end) l) (flat_map to_ic_struct o)
  | _ => None
  end.

(** engine/src/conversion/analysis/fun/mod.rs:2069-2102, inside add_constructors_present: label, kind and
    inputs for each special member. *)
Definition sm_label (m : IC.special_member) : string :=
  match m with IC.SmDefault => "default_ctor" | IC.SmMove => "move_ctor" | IC.SmCopy => "const_copy_ctor" | IC.SmDtor => "destructor" end.
Definition sm_special (m : IC.special_member) : special :=
  match m with IC.SmDefault => SmDefault | IC.SmMove => SmMove | IC.SmCopy => SmCopy | IC.SmDtor => SmDtor end.
Definition sm_inputs (q : qname) (m : IC.special_member) : list (string * ty) :=
  let p := to_type_path q in
  ("this", TPtr true p) ::
  match m with
  | IC.SmMove => [("other", TPath [] (marker_for_reference true) [TPtr true p])]
  | IC.SmCopy => [("other", TPath [] (marker_for_reference false) [TPtr false p])]
  | _ => []
  end.
(** engine/src/conversion/analysis/fun/mod.rs:2133-2196 [synthesize_special_member]: the name and the function.
    [make_ident] and the documentation are left out. *)
Definition synthetic_name (env : fn_env) (q : qname) (m : IC.special_member) : api_name :=
  AN (QN (qn_ns q) (synthetic_member_name (fe_hash env) (qn_item q) (sm_label m)))
     (match m with
      | IC.SmDefault => Some (match qget q (fe_nested env) with Some s => s | None => qn_item q end)
      | _ => None
      end).
Definition synthetic_fn (env : fn_env) (q : qname) (m : IC.special_member) : func :=
  Func (synthetic_member_name (fe_hash env) (qn_item q) (sm_label m)) (sm_inputs q m) false None None VisPublic
    (Some (sm_special m)) (Some q) None None None None.
(** engine/src/conversion/analysis/fun/mod.rs:2053-2103, the loop of add_constructors_present. *)
Fixpoint add_members (env : fn_env) (subs : list sapi) (ms : list (qname * IC.special_member)) (apis : list xapi)
    (existing : list qname) : M (list xapi) :=
  match ms with
  | [] => ret apis
  | (q, m) :: rest =>
      do (l, ex) <- fn_items env subs (synthetic_name env q m) (synthetic_fn env q m) existing;
      add_members env subs rest (xextend (dc_front d) apis l) ex
  end.

(** engine/src/conversion/analysis/fun/mod.rs:685-702 and 505-575 [add_subclass_constructors], with the
    subclasses found at the start. *)
Definition sub_ctors (env : fn_env) (subs : list sapi) (apis : list xapi) : M (list xapi) :=
  let all := filter (fun s => match s with SSubclass _ _ => false | _ => true end) (map to_sapi apis) in
  do l <- subclass_constructors env (all ++ subs) (all ++ subs);
  ret (xextend (dc_front d) apis (xextend (dc_front d) [] (map of_sapi l))).

(** engine/src/conversion/analysis/fun/mod.rs:303-340 [analyze_functions], with
    engine/src/conversion/analysis/fun/mod.rs:2051-2131 [add_constructors_present]: the APIs, and the special members found,
    of which each type notes whether it can be moved and destroyed. *)
Definition analyze_functions_m (l : list xapi) : M (list xapi * list (qname * IC.items)) :=
  let env := x_env l in
  let subs := filter (fun s => match s with SSubclass _ _ => true | _ => false end) (map to_sapi l) in
  do (l1, ex) <- fn_pass env subs l [];
  let r1 := xextend (dc_front d) [] l1 in
  do found <- of_option (x_constructors r1);
  do r2 <- add_members env subs (IC.synthesized (dc_exclude_impls d) (dc_ctor_blocked d) found) r1 ex;
  do r3 <- sub_ctors env subs (xextend (dc_front d) [] r2);
  fun st => (st, OOk (xextend (dc_front d) r3 (xextend (dc_front d) [] (map of_concrete (fs_extra st))), found)).
Definition analyze_functions_x (l : list xapi) : out (list xapi * list (qname * IC.items)) :=
  snd (analyze_functions_m l (x_start l)).

(** ** To the generation of code *)

(** The APIs as the later phases see them. A struct starts without the dependencies constructor_deps.rs adds;
    a function without analysis does not occur any more. *)
Definition erase (x : xapi) : api :=
  API (x_info x)
    match x_kind x with
    | XForward e => KForwardDeclaration e
    | XOpaqueTypedef b => KOpaqueTypedef b
    | XConcrete def _ => KConcreteType def
    | XStringConstructor => KStringConstructor
    | XFunction f _ (Some fa) =>
        KFunction {| fn_ident := f_ident f; fn_kind_of := fa_kind fa; fn_bridge_name := fa_bridge fa; fn_rust_name := fa_rust fa;
                     fn_params := map (fun p => dc_tokens d (snd p)) (fa_params fa); fn_deps := fa_deps fa;
                     fn_ignore := option_map (fun p => (fst p, Some (snd p))) (fa_ignore fa);
                     fn_external := fa_external fa;
                     fn_has_wrapper := match fa_wrapper fa with Some _ => true | None => false end |}
    | XTypedef _ old an => KTypedef old (match an with Some (_, ds) => ds | None => [] end)
    | XEnum => KEnum
    | XStruct _ (Some pa) =>
        KStruct {| st_kind := pa_kind pa; st_bases := pa_bases pa; st_field_deps := pa_field_deps pa;
                   st_field_def_deps := pa_field_def_deps pa; st_num_generics := pa_generics pa; st_ctor_deps := [] |}
    | XCType q => KCType q
    | XIgnored e c => KIgnored e c
    | XRustType => KRustType
    | XRustFn ds => KRustFn ds
    | XRustSubclassFn sub sf => KRustSubclassFn sub (sf_deps sf)
    | XSubclass sup => KSubclass sup
    | XSubclassTraitItem _ => KSubclassTraitItem
    | XExternCppType pod _ => KExternCppType pod
    | XConst | XFunction _ _ None | XStruct _ None => KConst
    end.

(** engine/src/conversion/mod.rs:131-164, inside convert: from what was parsed to the analysed functions. *)
Definition analyzed (l : list xapi) : out (list xapi * list (qname * IC.items)) :=
  match front (dc_front d) l with
  | OOk l1 => analyze_functions_x l1
  | OErr e => OErr e | OPanic => OPanic | OFuel => OFuel
  end.
(** engine/src/conversion/mod.rs:131-192, inside convert: from what was parsed to what code is generated for. [None] is an error, a
    panic, or a lack of fuel. *)
Definition kept (l : list xapi) : option apivec :=
  match analyzed l with
  | OOk (r, _) =>
      pipeline (ac_builtin (dc_front d)) (ac_lexes (dc_front d)) (ac_reserved (dc_front d)) is_known_type
        (ac_allow (dc_front d)) to_cpp_name is_ctype (av_from_list (ac_builtin (dc_front d)) (map erase r))
  | _ => None
  end.
End Driver.
