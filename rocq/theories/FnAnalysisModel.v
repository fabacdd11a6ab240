(** engine/src/conversion/analysis/fun/mod.rs: how one function is to be materialised. *)
From Coq Require Import NArith.
From Verif Require Import Base QNamesModel KnownTypesModel ApiModel NameCheckModel TypesModel TypedefsModel CppTypesModel
  ConcreteNamesModel TypeConverterModel ConversionModel TrackersModel SynthNamesModel.

(** engine/src/conversion/api.rs:482-486 [UnsafetyNeeded]. *)
Inductive unsafety := UNone | UJustBridge | UAlways.
(** parser/src/config.rs:33-37 [UnsafePolicy]. *)
Inductive unsafe_policy := AllFunctionsSafe | AllFunctionsUnsafe | ReferencesWrapped.
(** [CppVisibility], [SpecialMemberKind], [Explicitness], [Virtualness] of autocxx-bindgen. *)
Inductive visibility := VisPublic | VisProtected | VisPrivate.
Inductive special := SmDefault | SmCopy | SmMove | SmDtor | SmAssign.
Inductive explicitness := ExDeleted | ExDefaulted.
Inductive virtualness := VtVirtual | VtPure.
(** engine/src/conversion/api.rs:70-77 [TraitSynthesis]; the mutability of a cast only affects the text of
    the trait. *)
Inductive trait_synth := TsCast (to : qname) | TsAlloc (q : qname) | TsFree (q : qname).
(** engine/src/conversion/analysis/fun/mod.rs:282-285 [TypeConversionSophistication]. *)
Inductive sophistication := Regular | SimpleForSubclasses.
(** engine/src/conversion/analysis/fun/function_wrapper.rs:235-244 [CppFunctionBody]. *)
Inductive cpp_body :=
| CbFunctionCall (ns : list string) (name : string)
| CbStaticMethodCall (ns : list string) (ty name : string)
| CbPlacementNew (ns : list string) (ty : string)
| CbConstructSuperclass (sup : string)
| CbCast
| CbDestructor (ns : list string) (ty : string)
| CbAlloc (q : qname)
| CbFree (q : qname).
(** engine/src/conversion/analysis/fun/function_wrapper.rs:247-253 [CppFunctionKind]. *)
Inductive cpp_fn_kind := CkFunction | CkMethod | CkConstructor | CkConstMethod | CkSynthesizedConstructor.
(** engine/src/conversion/analysis/fun/function_wrapper.rs:256-268 [CppFunction]. *)
Record cpp_function := CppFn {
  cf_payload : cpp_body; cf_wrapper_name : string; cf_original_name : string;
  cf_ret : option policy; cf_args : list policy; cf_kind : cpp_fn_kind;
  cf_pass_obs : bool; cf_qualification : option qname }.

(** engine/src/conversion/api.rs:162-189 [FuncToConvert]: the fields the analysis reads. Every input is a
    named argument with a type, as bindgen writes them. *)
Record func := Func {
  f_ident : string; f_inputs : list (string * ty); f_variadic : bool; f_output : option ty;
  f_virtual : option virtualness; f_vis : visibility; f_special : option special;
  f_self_ty : option qname; f_this : option qname; f_trait : option trait_synth;
  f_synthetic : option (cpp_body * cpp_fn_kind); f_deleted : option explicitness }.

(** engine/src/conversion/analysis/fun/mod.rs:183-192 [ArgumentAnalysis]. *)
Record arg := Arg {
  a_conv : policy; a_name : string; a_self : option (qname * mutability); a_lifetime : bool; a_mutref : bool;
  a_deps : list qname; a_unsafe : unsafety; a_placement : bool }.
(** engine/src/conversion/analysis/fun/mod.rs:194-201 [ReturnTypeAnalysis]. *)
Record ret_an := Ret {
  r_type : option ty; r_conv : option policy; r_ref : bool; r_mutref : bool; r_deps : list qname;
  r_placement : option ((string * ty) * arg) }.
(** engine/src/conversion/analysis/fun/mod.rs:203-214 [ReturnTypeAnalysis::default]. *)
Definition ret_default : ret_an := Ret None None false false [] None.

(** engine/src/conversion/analysis/fun/mod.rs:138-147 [RustRenameStrategy]. *)
Inductive rename := RnNone | RnInOutputMod (id : string) | RnWrapper.
(** engine/src/conversion/analysis/fun/mod.rs:150-180 [FnAnalysis], without [vis]. *)
Record fn_analysis := FA {
  fa_bridge : string; fa_rust : string; fa_cpp_call : option string; fa_rename : rename;
  fa_params : list (string * ty); fa_kind : fn_kind; fa_ret : option ty; fa_details : list arg;
  fa_ret_conv : option policy; fa_unsafe : unsafety; fa_wrapper : option cpp_function; fa_deps : list qname;
  fa_ignore : option (cpp_error * err_ctx); fa_external : bool; fa_rust_wrapper : bool }.

(** engine/src/conversion/analysis/fun/mod.rs:287-302 [FnAnalyzer], the parts which do not change.
    [fe_allow] is [config.is_on_allowlist]; [fe_hash] the hash of the configuration; [fe_builtin] the
    parameter of the error contexts in ApiModel; [fe_fuel] bounds the type converter. *)
Record fn_env := FE {
  fe_tc : tc_env; fe_policy : unsafe_policy; fe_no_utilities : bool; fe_pod_safe : list qname; fe_moveit : list qname;
  fe_nested : list (qname * string); fe_generic : list qname; fe_anonymous : list qname;
  fe_allow : string -> bool; fe_hash : string; fe_force_wrapper : bool; fe_builtin : string -> bool; fe_fuel : nat }.
(** The parts which change: [type_converter.concrete_templates], [extra_apis],
    [overload_trackers_by_mod], [bridge_name_tracker]. *)
Record fn_state := FS { fs_concretes : concretes; fs_extra : list concrete_api; fs_overloads : trackers; fs_bridge : offsets }.

Definition M (A : Type) : Type := fn_state -> fn_state * out A.
Definition ret {A} (a : A) : M A := fun st => (st, OOk a).
Definition fail {A} (e : cpp_error) : M A := fun st => (st, OErr e).
Definition panic {A} : M A := fun st => (st, OPanic).
Definition bind {A B} (m : M A) (f : A -> M B) : M B :=
  fun st => match m st with
            | (st', OOk a) => f a st'
            | (st', OErr e) => (st', OErr e)
            | (st', OPanic) => (st', OPanic)
            | (st', OFuel) => (st', OFuel)
            end.
(** The error of a computation as a value: [Result] handled by the caller. *)
Definition catch {A} (m : M A) : M (res A cpp_error) :=
  fun st => match m st with
            | (st', OOk a) => (st', OOk (Ok a))
            | (st', OErr e) => (st', OOk (Err e))
            | (st', OPanic) => (st', OPanic)
            | (st', OFuel) => (st', OFuel)
            end.
Notation "'do' x <- m ; k" := (bind m (fun x => k)) (at level 200, x pattern, m at level 100, k at level 200).
Definition of_option {A} (o : option A) : M A := match o with Some a => ret a | None => panic end.
Definition of_verdict (v : verdict) : M unit := match v with VOk => ret tt | VErr e => fail e | VPanic => panic end.

(** engine/src/conversion/analysis/fun/mod.rs:342-371 [build_pod_safe_type_set]. *)
Definition build_pod_safe_type_set (apis : list api) : list qname :=
  flat_map (fun a => match api_kind_of a with
                     | KStruct s => match st_kind s with Pod => [aname a] | _ => [] end
                     | KEnum => [aname a]
                     | KExternCppType true => [aname a]
                     | _ => []
                     end) apis
  ++ flat_map (fun p => match snd p with Some true => [fst p] | _ => [] end) pod_safe_types.
(** engine/src/conversion/analysis/fun/mod.rs:393-403 [build_generic_type_set]. *)
Definition build_generic_type_set (apis : list api) : list qname :=
  flat_map (fun a => match api_kind_of a with KStruct s => if 0 <? st_num_generics s then [aname a] else [] | _ => [] end) apis.

Section Fn.
Variable env : fn_env.

Definition validate (id : string) : verdict := validate_ident_ok_for_cxx (tc_lexes (fe_tc env)) (tc_reserved (fe_tc env)) id.
(** engine/src/types.rs:272-281 [validate_ident_ok_for_rust]; its [make_ident] panics on what is no
    identifier. *)
Definition rust_keyword (id : string) : M bool :=
  if tc_lexes (fe_tc env) id then ret (tc_reserved (fe_tc env) id) else panic.

(** engine/src/conversion/analysis/fun/mod.rs:435-444 [convert_boxed_type]. *)
Definition convert_boxed_type (ns : list string) (t : ty) : M annotated :=
  fun st =>
    match convert_type (fe_fuel env) (fe_tc env) ns (fs_concretes st) OuterType t with
    | (cs, OOk a) => (FS cs (fs_extra st ++ ann_extra a) (fs_overloads st) (fs_bridge st), OOk a)
    | (cs, r) => (FS cs (fs_extra st) (fs_overloads st) (fs_bridge st), r)
    end.

(** engine/src/conversion/analysis/fun/mod.rs:2303-2322 [extract_type_from_pinned_mut_ref]; [None] is a
    panic. *)
Definition extract_type_from_pinned_mut_ref (args : list ty) : option ty :=
  match args with TRef _ _ e :: _ => Some e | _ => None end.

Definition is_wrapped_policy : bool := match fe_policy env with ReferencesWrapped => true | _ => false end.

(** engine/src/conversion/analysis/fun/mod.rs:1832-1936: the conversion of an argument which is neither a
    subclass holder nor the pointer to a place for the result; [None] is a panic. *)
Definition general_conversion (an : annotated) (is_move : bool) (force : option rust_conv)
    (soph : sophistication) (is_self is_placement : bool) : option policy :=
  let is_rvalue := match ann_kind an with TkRValueReference => true | _ => false end in
  let is_reference := (match ann_kind an with TkReference => true | _ => false end) || is_self in
  let forced := match force with Some _ => true | None => false end in
  let forced_or_none := match force with Some c => c | None => RcNone end in
  let t := ann_ty an in
  match t with
  | TPath lead id args =>
      if is_wrapped_policy && is_reference && negb forced then
        match extract_type_from_pinned_mut_ref args with
        | Some u => Some (Policy (TPtr true u) CcFromPointerToReference RcFromReferenceWrapperToPointer)
        | None => None
        end
      else match path_name lead id with
           | None => None
           | Some tn =>
               Some (if qmem tn (fe_pod_safe env) then
                       if lacks_copy_constructor tn then Policy t CcMove RcNone else new_unconverted t
                     else if convertible_from_strs tn && negb (fe_no_utilities env) then
                       Policy t CcFromUniquePtrToValue RcFromStr
                     else match soph with
                          | SimpleForSubclasses => Policy t CcFromUniquePtrToValue RcNone
                          | Regular => Policy t CcFromPtrToValue RcFromValueParamToPtr
                          end)
           end
  | TPtr m e =>
      Some (if is_move then Policy t CcFromPtrToMove forced_or_none
            else if is_rvalue then Policy e CcFromPtrToValue RcFromRValueParamToPtr
            else if is_wrapped_policy && is_reference && negb forced && negb is_placement then
              Policy t CcFromPointerToReference RcFromReferenceWrapperToPointer
            else Policy t CcNone forced_or_none)
  | TRef m _ e =>
      if is_wrapped_policy && negb forced && negb is_placement then
        if m then None else Some (Policy (TPtr false e) CcFromPointerToReference RcFromReferenceWrapperToPointer)
      else Some (Policy t CcNone forced_or_none)
  | _ => Some (Policy t CcNone forced_or_none)
  end.

(** engine/src/conversion/analysis/fun/mod.rs:1787-1937 [argument_conversion_details]; [None] is a
    panic. *)
Definition argument_conversion_details (an : annotated) (is_move : bool) (force : option rust_conv)
    (soph : sophistication) (is_self is_placement : bool) : option policy :=
  match ann_kind an with
  | TkSubclassHolder holder =>
      match from_holder_name holder with
      | Some sub => Some (Policy (TPath ["rust"] "Box" [TPath [] holder []]) CcMove (RcToBoxedUpHolder sub))
      | None => None
      end
  | _ =>
      match force, soph with
      | Some RcFromPlacementParamToNewReturn, Regular =>
          Some (Policy (ann_ty an) CcIgnoredPlacementPtrParameter RcFromPlacementParamToNewReturn)
      | _, _ => general_conversion an is_move force soph is_self is_placement
      end
  end.

(** engine/src/conversion/analysis/fun/mod.rs:1670-1726: the type of a [this] argument. The payload of
    [UnexpectedThisType] is dropped. *)
Definition this_details (virtual_this : option qname) (t : ty) : M (ty * (qname * mutability)) :=
  match t with
  | TPtr m (TPath lead id args) =>
      let '(lead, id) := match unwrap_marker opaque_marker lead id args with
                         | Some (TPath l i _) => (l, i)
                         | _ => (lead, id)
                         end in
      let rm := if m then MMutable else MConst in
      match virtual_this with
      | Some v => ret (TPtr m (to_type_path v), (v, rm))
      | None => do q <- of_option (path_name lead id); ret (t, (q, rm))
      end
  | _ => fail (EOther "UnexpectedThisType")
  end.

(** engine/src/conversion/analysis/fun/mod.rs:1651-1785 [convert_fn_arg], for an argument [n: t]. *)
Definition convert_fn_arg (ns : list string) (virtual_this : option qname) (this_as_reference is_move : bool)
    (force : option rust_conv) (soph : sophistication) (construct_into_self : bool) (n : string) (t : ty)
    : M ((string * ty) * arg) :=
  do (n', t', self_type) <-
    (if String.eqb n "this" then
       do (t1, st) <- this_details virtual_this t;
       ret (if this_as_reference then "self" else n,
            if this_as_reference then TPath [] "__bindgen_marker_Reference" [t1] else t1, Some st)
     else do _ <- of_verdict (validate n); ret (n, t, None));
  let is_placement := (match self_type with Some _ => construct_into_self | None => false end)
                      || (match force with Some RcFromPlacementParamToNewReturn => true | _ => false end) in
  do an <- convert_boxed_type ns t';
  do conv <- of_option (argument_conversion_details an is_move force soph
                          (match self_type with Some _ => true | None => false end) is_placement);
  let requires_unsafe :=
    if (match ann_kind an with TkPointer => true | _ => false end) && negb is_placement then UAlways
    else if bridge_unsafe_needed conv || is_placement then UJustBridge
    else UNone in
  ret ((n', ann_ty an),
       Arg conv n' self_type
         (match ann_kind an with TkReference | TkMutableReference => true | _ => false end)
         (match ann_kind an with TkMutableReference => true | _ => false end)
         (ann_deps an) requires_unsafe is_placement).

(** engine/src/conversion/analysis/fun/mod.rs:1939-2037 [convert_return_type]. *)
Definition convert_return_type (ns : list string) (soph : sophistication) (rt : option ty) : M ret_an :=
  match rt with
  | None => ret ret_default
  | Some t0 =>
      do an <- convert_boxed_type ns t0;
      let t := ann_ty an in
      let plain : M ret_an :=
        let was_mut := match ann_kind an with TkMutableReference => true | _ => false end in
        let was_ref := was_mut || (match ann_kind an with TkReference => true | _ => false end) in
        do conv <- of_option (if was_ref && is_wrapped_policy then return_reference_into_wrapper t
                              else Some (new_unconverted t));
        ret (Ret (Some t) (Some conv) was_ref was_mut (ann_deps an) None) in
      match t with
      | TPath lead id _ =>
          do tn <- of_option (path_name lead id);
          if qmem tn (fe_pod_safe env) then plain
          else if qmem tn (fe_moveit env) && (match soph with Regular => true | _ => false end) then
            do p <- convert_fn_arg ns None false false (Some RcFromPlacementParamToNewReturn) Regular false
                      "placement_return_type" (TPtr true t);
            ret (Ret None (Some (new_for_placement_return t)) false false (ann_deps an) (Some p))
          else ret (Ret (Some t) (Some (new_to_unique_ptr t)) false false (ann_deps an) None)
      | _ => plain
      end
  end.

(** engine/src/conversion/codegen_rs/fun_codegen.rs:60-84 [from_param_details]. *)
Definition unsafe_step (ignore_placements : bool) (acc : unsafety) (pd : arg) : unsafety :=
  match acc with
  | UAlways => UAlways
  | _ =>
      if ((match a_self pd with Some _ => true | None => false end) || a_placement pd) && ignore_placements then
        match a_unsafe pd with UAlways | UJustBridge => UJustBridge | UNone => acc end
      else match a_unsafe pd, acc with
           | UAlways, _ => UAlways
           | UJustBridge, _ | _, UJustBridge => UJustBridge
           | _, _ => UNone
           end
  end.
Definition from_param_details (params : list arg) (ignore_placements : bool) : unsafety :=
  fold_left (unsafe_step ignore_placements) params UNone.

(** engine/src/conversion/analysis/fun/mod.rs:466-503 [should_be_unsafe]. *)
Definition should_be_unsafe (params : list arg) (kind : fn_kind) : unsafety :=
  let non_placement := from_param_details params true in
  let all := from_param_details params false in
  match kind with
  | FTraitMethod (TCopyConstructor | TMoveConstructor | TAlloc | TDealloc) _ => UAlways
  | FTraitMethod _ _ => match all with UAlways => UJustBridge | u => u end
  | _ =>
      match fe_policy env with
      | AllFunctionsUnsafe => UAlways
      | _ => match non_placement with
             | UAlways => UAlways
             | UJustBridge => match all with UAlways => UJustBridge | _ => non_placement end
             | UNone => match all with UAlways => UJustBridge | u => u end
             end
      end
  end.

(** engine/src/conversion/analysis/fun/mod.rs:1524-1527 [get_overload_name], 1638-1641
    [get_function_overload_name]. *)
Definition get_overload_name (ns : list string) (ty : option string) (name : string) : M string :=
  fun st => let '(ts, n) := overload_step (fs_overloads st) (OReq ns ty name) in
            (FS (fs_concretes st) (fs_extra st) ts (fs_bridge st), OOk n).
(** engine/src/conversion/analysis/fun/mod.rs:446-454 [get_cxx_bridge_name]. *)
Definition get_cxx_bridge_name (ty : option string) (name : string) (ns : list string) : M string :=
  fun st => let '(cs, n) := bridge_step (fs_bridge st) (BReq ty name ns) in
            (FS (fs_concretes st) (fs_extra st) (fs_overloads st) cs, OOk n).

(** engine/src/conversion/analysis/fun/mod.rs:1468-1479 [error_context_for_method]. *)
Definition error_context_for_method (self_ty : qname) (rust_name : string) : err_ctx :=
  if qmem self_ty (fe_generic env) then ctx_for_item (fe_builtin env) rust_name
  else ctx_for_method (fe_builtin env) (qn_item self_ty) rust_name.

(** [str::strip_prefix]. *)
Fixpoint strip_prefix (p s : string) : option string :=
  match p, s with
  | EmptyString, _ => Some s
  | String a p', String b s' => if Ascii.eqb a b then strip_prefix p' s' else None
  | _, _ => None
  end.
(** [str::parse::<u32>().is_ok()]: an optional plus sign, then digits, the value below [2^32]. *)
Fixpoint parse_digits (acc : N) (s : string) : option N :=
  match s with
  | EmptyString => Some acc
  | String c r =>
      let d := N_of_ascii c in
      if (48 <=? d)%N && (d <=? 57)%N then
        let acc' := (acc * 10 + (d - 48))%N in
        if (acc' <? 4294967296)%N then parse_digits acc' r else None
      else None
  end.
Definition parses_u32 (s : string) : bool :=
  let s' := match s with String "+" r => r | _ => s end in
  match s' with EmptyString => false | _ => match parse_digits 0 s' with Some _ => true | None => false end end.
(** engine/src/conversion/analysis/fun/mod.rs:2210-2219 [constructor_with_suffix]. *)
Definition constructor_with_suffix (rust_name nested : string) : option string :=
  match strip_prefix nested rust_name with
  | Some s => if String.eqb s "" || parses_u32 s then Some s else None
  | None => None
  end.

(** engine/src/conversion/analysis/fun/mod.rs:789-800: the name wanted in Rust. *)
Definition ideal_rust_name (cpp : option string) (ident : string) : M string :=
  match cpp with
  | None => ret ident
  | Some c =>
      if ends_with "_" ident then ret ident
      else do kw <- rust_keyword c; ret (if kw then c +++ "_" else c)
  end.

(** engine/src/conversion/analysis/fun/mod.rs:1531-1636 [trait_creation_details_for_synthetic_function],
    [generate_alloc_or_deallocate]. *)
Definition trait_creation_details (synth : option trait_synth) (ns : list string) (ideal : string) (self_ty : option qname)
    : M (option (fn_kind * err_ctx * string)) :=
  let item n := ctx_for_item (fe_builtin env) n in
  match synth with
  | None => ret None
  | Some (TsCast _) =>
      do n <- get_overload_name ns None ideal;
      do from <- of_option self_ty;
      ret (Some (FTraitMethod TCast from, item n, n))
  | Some (TsAlloc q) => do n <- get_overload_name (qn_ns q) None ideal; ret (Some (FTraitMethod TAlloc q, item n, n))
  | Some (TsFree q) => do n <- get_overload_name (qn_ns q) None ideal; ret (Some (FTraitMethod TDealloc q, item n, n))
  end.

(** engine/src/conversion/analysis/fun/mod.rs:817-996: method, function or trait implementation, the
    context for errors, and the Rust name. [second_is_ref] says whether the second converted parameter is
    a reference. *)
Definition fn_kind_and_name (fn : func) (ns : list string) (predetermined : option string) (ideal : string)
    (is_static : bool) (self_ty : option qname) (receiver : option mutability) (second_is_ref : bool)
    : M (fn_kind * err_ctx * string) :=
  do tr <- trait_creation_details (f_trait fn) ns ideal self_ty;
  match tr with
  | Some d => ret d
  | None =>
      match self_ty with
      | None =>
          do n <- get_overload_name ns None ideal;
          ret (FFunction, ctx_for_item (fe_builtin env) n, n)
      | Some q =>
          let nested := match qget q (fe_nested env) with Some s => s | None => qn_item q end in
          let overload n := match predetermined with Some p => ret p | None => get_overload_name ns (Some (qn_item q)) n end in
          match f_special fn with
          | Some ((SmCopy | SmMove) as sm) =>
              let n0 := match strip_prefix nested ideal with Some s => "new" +++ s | None => ideal end in
              do n <- overload n0;
              ret (match sm with
                   | SmMove => FTraitMethod TMoveConstructor q
                   | _ => if second_is_ref then FTraitMethod TCopyConstructor q else FMethod (MConstructor false) q
                   end, error_context_for_method q n, n)
          | Some SmDtor =>
              do n <- overload ideal;
              ret (FTraitMethod TDestructor q, error_context_for_method q n, n)
          | sm =>
              do (mk, n0) <-
                match constructor_with_suffix ideal nested with
                | Some s => ret (MConstructor (match sm with Some SmDefault => true | _ => false end), "new" +++ s)
                | None =>
                    if is_static then ret (MStatic, ideal)
                    else do r <- of_option receiver;
                         ret (match f_virtual fn with
                              | None => MNormal
                              | Some VtVirtual => MVirtual r
                              | Some VtPure => MPureVirtual r
                              end, ideal)
                end;
              do n <- overload n0;
              ret (FMethod mk q, error_context_for_method q n, n)
          end
      end
  end.

Definition set_nth {A} (i : nat) (x : A) (l : list A) : list A := firstn i l ++ x :: skipn (S i) l.
(** engine/src/conversion/analysis/fun/mod.rs:1484-1522 [reanalyze_parameter]: the new lists. [None] for
    an error; a panic if there is no such input or no such analysed parameter. *)
Definition reanalyze (fn : func) (ns : list string) (idx : nat) (force : option rust_conv) (soph : sophistication)
    (construct is_move : bool) (ps : list ((string * ty) * arg)) : M (list ((string * ty) * arg)) :=
  do (n, t) <- of_option (nth_error (f_inputs fn) idx);
  do p <- convert_fn_arg ns (f_this fn) false is_move force soph construct n t;
  if idx <? List.length ps then ret (set_nth idx p ps) else panic.

(** [.unwrap_or_else(set_ignore_reason)] around a step on the parameters. *)
Definition keep_going (ig : option cpp_error) (ps : list ((string * ty) * arg))
    (m : M (list ((string * ty) * arg))) : M (option cpp_error * list ((string * ty) * arg)) :=
  do r <- catch m;
  ret (match r with Ok ps' => (ig, ps') | Err e => (Some e, ps) end).
Definition set_if (ig : option cpp_error) (b : bool) (tag : string) : option cpp_error := if b then Some (EOther tag) else ig.

(** engine/src/conversion/analysis/fun/mod.rs:1012-1113: constructors and destructors take their
    receiver differently. *)
Definition fix_receiver (fn : func) (ns : list string) (soph : sophistication) (kind : fn_kind)
    (ps : list ((string * ty) * arg)) : M (option cpp_error * list ((string * ty) * arg)) :=
  let counted := set_if (set_if None (List.length ps <? 2) "ConstructorWithOnlyOneParam") (2 <? List.length ps) "ConstructorWithMultipleParams" in
  match kind with
  | FMethod (MConstructor _) _ => keep_going None ps (reanalyze fn ns 0 None soph true false ps)
  | FTraitMethod TDestructor _ => keep_going None ps (reanalyze fn ns 0 (Some RcFromTypeToPtr) soph false false ps)
  | FTraitMethod TCopyConstructor _ =>
      keep_going counted ps (reanalyze fn ns 0 (Some RcFromPinMaybeUninitToPtr) soph false false ps)
  | FTraitMethod TMoveConstructor _ =>
      do (ig, ps1) <- keep_going counted ps (reanalyze fn ns 0 (Some RcFromPinMaybeUninitToPtr) soph false false ps);
      keep_going ig ps1 (reanalyze fn ns 1 (Some RcFromPinMoveRefToPtr) soph false true ps1)
  | _ => ret (None, ps)
  end.

(** engine/src/conversion/analysis/fun/mod.rs:742-764: the converted parameters and the errors of those
    which could not be. [ConvertErrorFromCpp::Argument] is reduced to the error inside. *)
Fixpoint convert_params (fn : func) (ns : list string) (soph : sophistication) (inputs : list (string * ty))
    : M (list ((string * ty) * arg) * list cpp_error) :=
  match inputs with
  | [] => ret ([], [])
  | (n, t) :: rest =>
      do r <- catch (convert_fn_arg ns (f_this fn) true false None soph false n t);
      do (ps, bads) <- convert_params fn ns soph rest;
      ret (match r with Ok p => (p :: ps, bads) | Err e => (ps, e :: bads) end)
  end.

(** engine/src/conversion/analysis/fun/mod.rs:2295-2301 [return_type_is_reference]. *)
Definition return_type_is_rvalue (rt : option ty) : bool :=
  match rt with Some t => type_is_reference t true | None => false end.

(** engine/src/conversion/analysis/fun/mod.rs:1119-1177: functions which cannot be offered; each check
    replaces the reason before. *)
Definition check_unsupported (fn : func) (kind : fn_kind) (bads : list cpp_error) (ig : option cpp_error) : option cpp_error :=
  let ig1 := set_if ig (match f_vis fn with VisPrivate => true | _ => false end) "PrivateMethod" in
  let ig2 := set_if ig1 (f_variadic fn) "Variadic" in
  match bads with
  | e :: _ => Some e
  | [] =>
      if match f_special fn with Some SmAssign => true | _ => false end then Some (EOther "AssignmentOperator")
      else if return_type_is_rvalue (f_output fn) then Some (EOther "RValueReturn")
      else if match f_deleted fn with Some ExDeleted => true | _ => false end then Some (EOther "Deleted")
      else
        let on_type q := set_if (set_if ig2 (qmem q (fe_generic env)) "MethodOfGenericType")
                           (qmem q (fe_anonymous env)) "MethodInAnonymousNamespace" in
        match kind with
        | FMethod mk q =>
            if (match mk with MStatic => false | _ => true end) && negb (is_cxx_acceptable_receiver q) then Some (EOther "UnsupportedReceiver")
            else if negb (fe_allow env (to_cpp_name q)) then Some (EOther "MethodOfNonAllowlistedType")
            else on_type q
        | FTraitMethod _ q => on_type q
        | FFunction => ig2
        end
  end.

(** engine/src/conversion/analysis/fun/mod.rs:1229-1264: references returned must come from somewhere.
    The payloads (the function's name) are dropped. *)
Definition check_references (r : ret_an) (details : list arg) (ig : option cpp_error) : option cpp_error :=
  let refs := List.length (filter a_lifetime details) in
  let muts := List.length (filter (fun pd => a_lifetime pd && a_mutref pd) details) in
  let ig1 := if r_ref r then set_if (set_if ig (refs =? 0) "NoInputReference") (1 <? refs) "MultipleInputReferences" else ig in
  if r_mutref r then set_if (set_if ig1 (muts =? 0) "NoMutableInputReference") (1 <? muts) "MultipleMutableInputReferences" else ig1.

(** engine/src/conversion/analysis/fun/mod.rs:1270-1311: whether a C++ wrapper is needed. [keyword] says
    that the C++ name is a Rust keyword. *)
Definition cpp_wrapper_needed (fn : func) (kind : fn_kind) (bridge rust : string) (details : list arg)
    (ret_conv : option policy) (keyword : bool) : bool :=
  match kind with
  | FMethod (MStatic | MConstructor _ | MVirtual _ | MPureVirtual _) _
  | FTraitMethod (TCopyConstructor | TMoveConstructor | TDestructor) _ => true
  | _ =>
      (match kind with FMethod _ _ => negb (String.eqb bridge rust) | _ => false end)
      || existsb (fun pd => cpp_work_needed (a_conv pd)) details
      || (match ret_conv with Some p => cpp_work_needed p | None => false end)
      || keyword
      || (match f_synthetic fn with Some _ => true | None => false end)
      || fe_force_wrapper env
  end.

(** engine/src/conversion/analysis/fun/mod.rs:1325-1370: what the C++ wrapper does. *)
Definition wrapper_payload (fn : func) (ns : list string) (kind : fn_kind) (cpp_name : string) : cpp_body * cpp_fn_kind :=
  match f_synthetic fn with
  | Some p => p
  | None =>
      match kind with
      | FMethod (MConstructor _) q | FTraitMethod (TCopyConstructor | TMoveConstructor) q => (CbPlacementNew ns (qn_item q), CkConstructor)
      | FTraitMethod TDestructor q => (CbDestructor ns (qn_item q), CkFunction)
      | FMethod MStatic q => (CbStaticMethodCall ns (qn_item q) cpp_name, CkFunction)
      | FMethod _ _ => (CbFunctionCall ns cpp_name, CkMethod)
      | _ => (CbFunctionCall ns cpp_name, CkFunction)
      end
  end.

(** engine/src/conversion/analysis/fun/mod.rs:1420-1426: whether a Rust wrapper is needed. *)
Definition rust_wrapper_needed (kind : fn_kind) (bridge rust : string) (details : list arg) (ret_conv : option policy) : bool :=
  existsb (fun pd => rust_work_needed (a_conv pd)) details
  || (match ret_conv with Some p => rust_work_needed p | None => false end)
  || match kind with
     | FTraitMethod _ _ => true
     | FMethod _ _ => negb (String.eqb bridge rust)
     | FFunction => fe_force_wrapper env
     end.

(** engine/src/conversion/analysis/fun/mod.rs:719-1466 [analyze_foreign_fn]. [name] is the name of the
    API; [make_ident] is checked for the name used in diagnostics and for the name given to cxx only. *)
Definition analyze_foreign_fn (name : api_name) (fn : func) (soph : sophistication) (predetermined : option string)
    : M (fn_analysis * api_name) :=
  let ns := qn_ns (an_name name) in
  do _ <- (if tc_lexes (fe_tc env) (match an_cpp name with Some c => c | None => f_ident fn end) then ret tt else panic);
  do (ps0, bads) <- convert_params fn ns soph (f_inputs fn);
  let params_deps := flat_map (fun p => a_deps (snd p)) ps0 in
  let self := hd_error (flat_map (fun p => match a_self (snd p) with Some s => [s] | None => [] end) ps0) in
  do ideal <- ideal_rust_name (an_cpp name) (f_ident fn);
  let is_static := match self with Some _ => false | None => match f_self_ty fn with Some _ => true | None => false end end in
  let self_ty := match self with Some (q, _) => Some q | None => f_self_ty fn end in
  let receiver := match self with Some (_, m) => Some m | None => None end in
  let second_is_ref := match nth_error ps0 1 with
                       | Some (_, a) => match pol_type (a_conv a) with TRef _ _ _ => true | _ => false end
                       | None => false
                       end in
  do (kind, ctx, rust_name) <- fn_kind_and_name fn ns predetermined ideal is_static self_ty receiver second_is_ref;
  do (ig0, ps1) <- fix_receiver fn ns soph kind ps0;
  let ig1 := check_unsupported fn kind bads ig0 in
  do bridge0 <- get_cxx_bridge_name (match kind with FMethod _ q | FTraitMethod _ q => Some (qn_item q) | FFunction => None end) rust_name ns;
  let cpp_override := match an_cpp name with
                      | Some c => Some c
                      | None => if String.eqb bridge0 rust_name then None else Some rust_name
                      end in
  let cpp_fn_name := match an_cpp name with Some c => c | None => rust_name end in
  do rr <- catch (convert_return_type ns soph (f_output fn));
  let '(ig2, r) := match rr with Ok r => (ig1, r) | Err e => (Some e, ret_default) end in
  let ps2 := ps1 ++ match r_placement r with Some p => [p] | None => [] end in
  let details := map snd ps2 in
  let unsafe := should_be_unsafe details kind in
  let ig3 := check_references r details ig2 in
  do keyword <- match an_cpp name with Some c => rust_keyword c | None => ret false end;
  let needed := cpp_wrapper_needed fn kind bridge0 rust_name details (r_conv r) keyword in
  let bridge := if needed then wrapper_name (fe_hash env) bridge0 else bridge0 in
  let wrapper :=
    if needed then
      let '(payload, ck) := wrapper_payload fn ns kind cpp_fn_name in
      Some (CppFn payload bridge (match an_cpp name with Some c => c | None => bridge end) (r_conv r)
              (map a_conv details) ck false None)
    else None in
  let ret_type := if needed then
                    match r_conv r with
                    | Some p => if populate_return_value p then Some (unconverted_rust_type p) else r_type r
                    | None => r_type r
                    end
                  else r_type r in
  let params := if needed then
                  map (fun pd => (match a_self pd with Some _ => "autocxx_gen_this" | None => a_name pd end,
                                  converted_rust_type (a_conv pd))) details
                else map fst ps2 in
  let rust_wrapper := rust_wrapper_needed kind bridge rust_name details (r_conv r) in
  do v <- catch (of_verdict (validate bridge));
  let ig4 := match v with Ok _ => ig3 | Err e => Some e end in
  let rn := if rust_wrapper then RnWrapper
            else match kind with
                 | FFunction => if String.eqb bridge rust_name then RnNone else RnInOutputMod rust_name
                 | _ => RnNone
                 end in
  ret (FA bridge rust_name cpp_override rn params kind ret_type details (r_conv r) unsafe wrapper
          (params_deps ++ r_deps r) (match ig4 with Some e => Some (e, ctx) | None => None end)
          (match f_vis fn with VisPublic => true | _ => false end) rust_wrapper,
       AN (QN ns bridge) (an_cpp name)).
End Fn.
