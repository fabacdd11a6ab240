(** What is generated for Rust subclasses of C++ classes.

    Analysis: engine/src/conversion/analysis/fun/subclass.rs and
    engine/src/conversion/analysis/fun/mod.rs:505-702. Rust code:
    engine/src/conversion/codegen_rs/mod.rs. C++ class: engine/src/conversion/codegen_cpp/mod.rs:655-755.

    Names of subclasses are qualified names ([SubclassName] is an [ApiName] in the root
    namespace). [ApiVec]s are lists here: what becomes of entries with equal names is the
    subject of ApiVecModel. *)
From Verif Require Import Base ApiModel TypesModel ConversionModel TypeConverterModel FnAnalysisModel FnCodegenModel
  SynthNamesModel KnownTypesModel.
Open Scope string_scope.
Open Scope list_scope.

(** engine/src/conversion/api.rs:94-103 [SuperclassMethod]. *)
Record s_method := SM {
  sm_name : string; sm_receiver : qname; sm_params : list (string * ty); sm_pnames : list string;
  sm_ret : option ty; sm_mut : mutability; sm_unsafe : unsafety; sm_pure : bool }.

(** engine/src/conversion/api.rs:469-479 [RustSubclassFnDetails]. *)
Record sub_fn := SF {
  sf_params : list (string * ty); sf_ret : option ty; sf_cpp : cpp_function; sf_method : string;
  sf_super : qname; sf_mut : mutability; sf_deps : list qname; sf_unsafe : unsafety; sf_pure : bool }.

(** engine/src/conversion/api.rs:145-149 [Provenance] with [SubclassConstructorDetails]
    (engine/src/conversion/api.rs:83-89). *)
Inductive provenance := PvOther | PvSubclassCtor (sub : qname) (is_trivial : bool) (cpp : cpp_function).

(** engine/src/conversion/api.rs:359-466 [Api], the variants that matter here. [SType] stands for
    any type for which [generate_type] is called. *)
Inductive sapi :=
| SFunction (name : api_name) (fn : func) (fa : fn_analysis) (pv : provenance)
| STraitItem (name : qname) (m : s_method)
| SSubclassFn (name : qname) (sub : qname) (d : sub_fn)
| SSubclass (sub sup : qname)
| SType (name : qname) (abstract : bool) (num_generics : nat)
| SOther (name : qname).

Definition sapi_name (a : sapi) : qname :=
  match a with
  | SFunction n _ _ _ => an_name n
  | STraitItem n _ | SSubclassFn n _ _ | SSubclass n _ | SType n _ _ | SOther n => n
  end.

(** ** Analysis *)

(** engine/src/conversion/analysis/fun/subclass.rs:37-51 [subclasses_by_superclass], followed by the look-up
    of one superclass (engine/src/conversion/analysis/fun/mod.rs:684-690 in
    [FnAnalyzer::subclasses_by_superclass]). *)
Definition subclasses_of (apis : list sapi) (sup : qname) : list qname :=
  flat_map (fun a => match a with SSubclass sub s => if qn_eqb s sup then [sub] else [] | _ => [] end) apis.

(** The choice made twice in engine/src/conversion/analysis/fun/subclass.rs:89-93 and :144-148. *)
Definition sub_unsafe (policy : unsafe_policy) (fa : fn_analysis) : unsafety :=
  match policy with
  | AllFunctionsUnsafe => UAlways
  | _ => from_param_details (fa_details fa) false
  end.

Definition is_pure (k : fn_kind) : bool := match k with FMethod (MPureVirtual _) _ => true | _ => false end.

(** engine/src/conversion/analysis/fun/subclass.rs:76-108 [create_subclass_trait_item]. *)
Definition create_subclass_trait_item (policy : unsafe_policy) (name : qname) (fa : fn_analysis) (m : mutability)
    (receiver : qname) (pure : bool) : sapi :=
  STraitItem name
    (SM (fa_rust fa) receiver (fa_params fa) (map a_name (fa_details fa)) (fa_ret fa) m (sub_unsafe policy fa) pure).

(** engine/src/conversion/analysis/fun/subclass.rs:110-182 [create_subclass_function]. *)
Definition create_subclass_function (policy : unsafe_policy) (sub : qname) (fa : fn_analysis) (name : api_name)
    (m : mutability) (superclass : qname) (deps : list qname) : sapi :=
  let call_name := override_name sub (an_name name) in
  SSubclassFn call_name sub
    (SF (("me", TRef false None (TPath [] (sc_holder sub) [])) :: tl (fa_params fa))
        (fa_ret fa)
        (CppFn (CbFunctionCall [] (qn_item call_name)) (fa_rust fa)
           (match an_cpp name with Some c => c | None => qn_item (an_name name) end)
           (fa_ret_conv fa) (map a_conv (tl (fa_details fa)))
           (match m with MMutable => CkMethod | MConst => CkConstMethod end) true (Some (subclass_cpp sub)))
        (fa_rust fa) superclass m deps (sub_unsafe policy fa) (is_pure (fa_kind fa))).

(** engine/src/conversion/analysis/fun/subclass.rs:53-74 [create_subclass_fn_wrapper]. *)
Definition create_subclass_fn_wrapper (sub : qname) (super_fn : qname) (fn : func) : func :=
  Func (qn_item super_fn) (f_inputs fn) (f_variadic fn) (f_output fn) None VisPublic None
    (Some (subclass_cpp sub)) (Some (subclass_cpp sub)) (f_trait fn) None (f_deleted fn).

(** engine/src/conversion/analysis/fun/subclass.rs:184-268 [create_subclass_constructor]; [None] is a panic:
    the first parameter is not a pointer. *)
Definition create_subclass_constructor (sub : qname) (fa : fn_analysis) (sup : qname) (sup_cpp : string) (fn : func)
    : option (func * api_name * provenance) :=
  let cpp := subclass_cpp sub in
  let box := TPath ["rust"] "Box" [TPath [] (sc_holder sub) []] in
  let cpp_impl := CppFn (CbConstructSuperclass sup_cpp) (qn_item cpp) (qn_item cpp) None
    (new_unconverted box :: map a_conv (tl (fa_details fa))) CkSynthesizedConstructor false (Some cpp) in
  match f_inputs fn with
  | (n, TPtr m _) :: rest =>
      Some (Func (qn_item (peer_ctor_name sub))
              ((n, TPtr m (to_type_path cpp)) :: ("peer", box) :: rest)
              (f_variadic fn) (f_output fn) None VisPublic (f_special fn) (Some cpp) (Some cpp) None None (f_deleted fn),
            AN (peer_ctor_name sub) (Some (qn_item cpp)),
            PvSubclassCtor sub (Nat.eqb (List.length (fa_details fa)) 1) cpp_impl)
  | _ => None
  end.

(** engine/src/conversion/analysis/fun/mod.rs:685-702 [analyze_and_add]. *)
Definition analyze_and_add (env : fn_env) (name : api_name) (fn : func) (pv : provenance) (soph : sophistication)
    : M (sapi * qname) :=
  do (fa, nm) <- analyze_foreign_fn env name fn soph None;
  ret (SFunction nm fn fa pv, an_name nm).

(** One subclass in the loop of engine/src/conversion/analysis/fun/mod.rs:606-672, inside
    analyze_foreign_fn_and_subclasses. [existing] is
    [existing_superclass_trait_api_names]. *)
Definition subclass_items (env : fn_env) (fn : func) (name : api_name) (sup : qname) (m : mutability)
    (fa simpler : fn_analysis) (sub : qname) (existing : list qname) : M (list sapi * list qname) :=
  let pure := is_pure (fa_kind simpler) in
  let super_call := super_fn_name [] (fa_rust fa) in
  let super_api := super_fn_name [] (fa_bridge fa) in
  let trait := trait_api_name sup (fa_rust fa) in
  do (supers, deps) <-
    (if pure then ret ([], [trait])
     else do (a, n) <- analyze_and_add env (AN super_api None) (create_subclass_fn_wrapper sub super_call fn) PvOther
                         SimpleForSubclasses;
          ret ([a], [trait; n]));
  let override := create_subclass_function (fe_policy env) sub simpler name m sup deps in
  let item := create_subclass_trait_item (fe_policy env) trait simpler m sup pure in
  ret (if qmem trait existing then (supers ++ [override], existing)
       else (supers ++ [override; item], trait :: existing)).

Fixpoint subclass_loop (env : fn_env) (fn : func) (name : api_name) (sup : qname) (m : mutability)
    (fa simpler : fn_analysis) (subs : list qname) (existing : list qname) : M (list sapi * list qname) :=
  match subs with
  | [] => ret ([], existing)
  | sub :: subs =>
      do (l1, ex1) <- subclass_items env fn name sup m fa simpler sub existing;
      do (l2, ex2) <- subclass_loop env fn name sup m fa simpler subs ex1;
      ret (l1 ++ l2, ex2)
  end.

(** The receiver of a virtual method. *)
Definition virtual_kind (k : fn_kind) : option (qname * mutability) :=
  match k with
  | FMethod (MVirtual m) q | FMethod (MPureVirtual m) q => Some (q, m)
  | _ => None
  end.

(** engine/src/conversion/analysis/fun/mod.rs:582-683 [analyze_foreign_fn_and_subclasses]. *)
Definition analyze_foreign_fn_and_subclasses (env : fn_env) (apis : list sapi) (name : api_name) (fn : func)
    (existing : list qname) : M (list sapi * list qname) :=
  do (fa, nm) <- analyze_foreign_fn env name fn Regular None;
  match virtual_kind (fa_kind fa) with
  | Some (sup, m) =>
      do (simpler, _) <- analyze_foreign_fn env nm fn SimpleForSubclasses (Some (fa_rust fa));
      do (l, ex) <- subclass_loop env fn nm sup m fa simpler (subclasses_of apis sup) existing;
      ret (l ++ [SFunction nm fn fa PvOther], ex)
  | None => ret ([SFunction nm fn fa PvOther], existing)
  end.

(** engine/src/conversion/analysis/fun/mod.rs:304-340, inside analyze_functions: [convert_apis] applies it to the
    functions one after the other. *)
Fixpoint analyze_functions (env : fn_env) (apis : list sapi) (fns : list (api_name * func)) (existing : list qname)
    : M (list sapi) :=
  match fns with
  | [] => ret []
  | (name, fn) :: fns =>
      do (l, ex) <- analyze_foreign_fn_and_subclasses env apis name fn existing;
      do r <- analyze_functions env apis fns ex;
      ret (l ++ r)
  end.

(** engine/src/conversion/analysis/fun/mod.rs:511-536, inside [add_subclass_constructors]: types with a
    destructor that can be called. *)
Definition has_destructor (apis : list sapi) (q : qname) : bool :=
  existsb (fun a => match a with
    | SFunction _ fn fa _ =>
        match fa_kind fa with
        | FTraitMethod _ q' =>
            qn_eqb q q' && (match f_special fn with Some SmDtor => true | _ => false end)
            && (match f_deleted fn with None | Some ExDefaulted => true | _ => false end)
            && (match f_vis fn with VisPublic => true | _ => false end)
        | _ => false
        end
    | _ => false
    end) apis.

(** engine/src/conversion/analysis/fun/mod.rs:556-571, inside [add_subclass_constructors]: the
    constructors for one constructor of a superclass. *)
Fixpoint ctors_for (env : fn_env) (fn : func) (fa : fn_analysis) (sup : qname) (subs : list qname) : M (list sapi) :=
  match subs with
  | [] => ret []
  | sub :: subs =>
      match create_subclass_constructor sub fa sup (to_cpp_name sup) fn with
      | None => panic
      | Some (fn', name, pv) =>
          do (a, _) <- analyze_and_add env name fn' pv Regular;
          do r <- ctors_for env fn fa sup subs;
          ret (a :: r)
      end
  end.
(** engine/src/conversion/analysis/fun/mod.rs:505-575 [add_subclass_constructors]: what is added. *)
Fixpoint subclass_constructors (env : fn_env) (all rest : list sapi) : M (list sapi) :=
  match rest with
  | [] => ret []
  | a :: rest =>
      do l <- match a with
              | SFunction _ fn fa _ =>
                  match fa_kind fa with
                  | FMethod (MConstructor _) sup =>
                      if has_destructor all sup then ctors_for env fn fa sup (subclasses_of all sup) else ret []
                  | _ => ret []
                  end
              | _ => ret []
              end;
      do r <- subclass_constructors env all rest;
      ret (l ++ r)
  end.
(** engine/src/conversion/analysis/fun/mod.rs:304-340 [analyze_functions], the functions and what is
    made for subclasses. [others] are the APIs which are no functions. The constructors which C++ declares
    by itself and which [add_constructors_present] adds are among [fns] here. *)
Definition analyze_all (env : fn_env) (others : list sapi) (fns : list (api_name * func)) : M (list sapi) :=
  do l <- analyze_functions env others fns [];
  do c <- subclass_constructors env (others ++ l) (others ++ l);
  ret (others ++ l ++ c).

(** engine/src/conversion/analysis/abstract_types.rs:218-238 [discard_ignored_functions]: functions with a reason to be
    ignored go (RemoveIgnoredModel has the rest of it). *)
Definition discard_ignored (apis : list sapi) : list sapi :=
  filter (fun a => match a with SFunction _ _ fa _ => match fa_ignore fa with None => true | Some _ => false end | _ => true end) apis.

(** ** Rust code *)

(** A parameter of a generated function. *)
Inductive rparam := PSelf (mutable : bool) | PArg (name : string) (t : ty).
(** A generated function. The body is a call of a method of [self] (in traits) or of
    the peer (in implementations) with these arguments. *)
Inductive callee := CSelf (f : string) | CPeer (mutable : bool) (f : string).
Record gfun := GF {
  g_unsafe : bool; g_name : string; g_params : list rparam; g_ret : option ty; g_body : option (callee * list string) }.

Inductive out_item :=
| OTrait (name : qname) (super : option qname) (fns : list gfun)
| OImpl (trait : qname) (sub : string) (fns : list gfun)
| OPeerConstructor (sub cpp : string)
| OUpcall (unsafe : bool) (name : string) (params : list (string * ty)) (ret : option ty)
    (mutable : bool) (trait : qname) (method : string) (args : list string).

(** engine/src/conversion/codegen_rs/mod.rs:742-750 [args_from_sig]; every parameter is a name with a type. *)
Definition args_from_sig (ps : list (string * ty)) : list string := map fst (tl ps).

(** The first parameter replaced by [self]; [None] is the panic of [unwrap] on an empty list. *)
Definition with_self (m : mutability) (ps : list (string * ty)) : option (list rparam) :=
  match ps with
  | [] => None
  | _ :: r => Some (PSelf (match m with MMutable => true | MConst => false end) :: map (fun p => PArg (fst p) (snd p)) r)
  end.

(** engine/src/conversion/codegen_rs/mod.rs:255-274 [accumulate_superclass_methods]. The keys are the
    configured superclasses. *)
Definition superclass_methods (superclasses : list qname) (apis : list sapi) (q : qname) : option (list s_method) :=
  if qmem q superclasses then
    Some (flat_map (fun a => match a with STraitItem _ m => if qn_eqb (sm_receiver m) q then [m] else [] | _ => [] end) apis)
  else None.

Fixpoint all_some {A} (l : list (option A)) : option (list A) :=
  match l with
  | [] => Some []
  | Some x :: l => match all_some l with Some r => Some (x :: r) | None => None end
  | None :: _ => None
  end.

(** engine/src/conversion/codegen_rs/mod.rs:843-881, inside [add_superclass_stuff_to_type]: one method. *)
Definition trait_fns (m : s_method) : option (option gfun * gfun) :=
  let super_id := qn_item (super_fn_name [] (sm_name m)) in
  match with_self (sm_mut m) (sm_params m) with
  | None => None
  | Some ps =>
      let u := wrapper_token (sm_unsafe m) in
      if sm_pure m then Some (None, GF u (sm_name m) ps (sm_ret m) None)
      else Some (Some (GF u super_id ps (sm_ret m) None),
                 GF u (sm_name m) ps (sm_ret m) (Some (CSelf super_id, args_from_sig (sm_params m))))
  end.

(** engine/src/conversion/codegen_rs/mod.rs:837-905 [add_superclass_stuff_to_type]. *)
Definition superclass_traits (name : qname) (methods : option (list s_method)) : option (list out_item) :=
  match methods with
  | None => Some []
  | Some ms =>
      match all_some (map trait_fns ms) with
      | None => None
      | Some l =>
          let supers := flat_map (fun p => match fst p with Some f => [f] | None => [] end) l in
          let mains := map snd l in
          Some match supers with
               | [] => [OTrait (methods_trait_name name) None mains]
               | _ => [OTrait (supers_trait_name name) None supers;
                       OTrait (methods_trait_name name) (Some (supers_trait_name name)) mains]
               end
      end
  end.

(** engine/src/conversion/codegen_rs/mod.rs:579-604, inside [generate_subclass]: one method. *)
Definition impl_fn (m : s_method) : option gfun :=
  match with_self (sm_mut m) (sm_params m) with
  | None => None
  | Some ps =>
      let id := qn_item (super_fn_name [] (sm_name m)) in
      Some (GF (wrapper_token (sm_unsafe m)) id ps (sm_ret m)
              (Some (CPeer (match sm_mut m with MMutable => true | MConst => false end) id, tl (sm_pnames m))))
  end.

(** engine/src/conversion/codegen_rs/mod.rs:538-686 [generate_subclass]: the implementation of the
    [_supers] trait and of [CppPeerConstructor]. *)
Definition generate_subclass (sub sup : qname) (methods : option (list s_method)) (peer_ctor : bool) : option (list out_item) :=
  let ctor := if peer_ctor then [OPeerConstructor (qn_item sub) (qn_item (subclass_cpp sub))] else [] in
  match methods with
  | None => Some ctor
  | Some ms =>
      match all_some (map impl_fn (filter (fun m => negb (sm_pure m)) ms)) with
      | None => None
      | Some [] => Some ctor
      | Some fns => Some (OImpl (supers_trait_name sup) (qn_item sub) fns :: ctor)
      end
  end.

(** engine/src/conversion/codegen_rs/mod.rs:688-740 [generate_subclass_fn]. *)
Definition generate_subclass_fn (name : qname) (d : sub_fn) : out_item :=
  OUpcall (wrapper_token (sf_unsafe d)) (qn_item name) (sf_params d) (sf_ret d)
    (match sf_mut d with MMutable => true | MConst => false end)
    (methods_trait_name (sf_super d)) (sf_method d) (args_from_sig (sf_params d)).

(** engine/src/conversion/codegen_rs/mod.rs:1036-1057 [find_trivially_constructed_subclasses]: the two
    sets and their difference. *)
Definition ctor_subclasses (trivial : bool) (apis : list sapi) : list qname :=
  flat_map (fun a => match a with
    | SFunction _ _ _ (PvSubclassCtor sub t _) => if Bool.eqb t trivial then [sub] else []
    | _ => []
    end) apis.
Definition trivially_constructed (apis : list sapi) (sub : qname) : bool :=
  qmem sub (ctor_subclasses true apis) && negb (qmem sub (ctor_subclasses false apis)).

(** engine/src/conversion/codegen_rs/mod.rs:365-536 [generate_rs_for_api] and
    engine/src/conversion/codegen_rs/mod.rs:753-835 [generate_type], for these parts of the output. An
    abstract generic type generates nothing. *)
Definition generate_api (policy : unsafe_policy) (superclasses : list qname) (apis : list sapi) (a : sapi)
    : option (list out_item) :=
  match a with
  | SType name abstract n =>
      match superclass_traits name (superclass_methods superclasses apis name) with
      | None => None
      | Some l => if abstract && negb (Nat.eqb n 0) then Some [] else Some l
      end
  | SSubclass sub sup =>
      generate_subclass sub sup (superclass_methods superclasses apis sup)
        (trivially_constructed apis sub && match policy with AllFunctionsSafe => true | _ => false end)
  | SSubclassFn name _ d => Some [generate_subclass_fn name d]
  | _ => Some []
  end.

(** engine/src/conversion/codegen_rs/mod.rs:151-253 [rs_codegen], for these parts of the output. *)
Definition generate_all (policy : unsafe_policy) (superclasses : list qname) (apis : list sapi) : option (list out_item) :=
  match all_some (map (generate_api policy superclasses apis) apis) with
  | Some l => Some (concat l)
  | None => None
  end.

