(** engine/src/conversion/codegen_rs/fun_codegen.rs, function_wrapper_rs.rs, lifetime.rs and the end of
    mod.rs: the Rust code for one function. *)
From Verif Require Import Base ApiModel TypesModel UnqualifyModel ConversionModel SynthNamesModel TrackersModel FnAnalysisModel.

(** A type in a generated signature: an ordinary one, or [impl Trait], [impl Trait<T>], possibly [+ 'a]. *)
Inductive rty := RTy (t : ty) | RImpl (trait : string) (arg : option ty) (lt : bool).
(** A parameter [mut name: type]. *)
Record wparam := WP { wp_mut : bool; wp_name : string; wp_type : rty }.

(** The Rust code the generator writes, instead of a token stream. *)
Inductive code :=
| KVar (x : string)                              (* x *)
| KIntoCpp (c : code)                            (* c.into_cpp() *)
| KBoxNew (holder : string) (c : code)           (* Box::new(holder(c)) *)
| KUninitPtr (c : code)                          (* c.get_unchecked_mut().as_mut_ptr() *)
| KMoveRefPtr (c : code)                         (* { let r: &mut _ = Pin::into_inner_unchecked(c.as_mut()); r } *)
| KGetPtr (x : string)                           (* x.get_ptr() *)
| KAsPtr (mut : bool) (c : code)                 (* c.as_mut_ptr() or c.as_ptr() *)
| KHandler (handler : string)                    (* autocxx::handler::default() *)
| KPinNew (x : string)                           (* Pin::new_unchecked(&mut x) *)
| KPopulate (x : string) (c : code)              (* x.as_mut().populate(c) *)
| KCall (f : string) (args : list code)          (* cxxbridge::f(args) *)
| KFromPtr (mut : bool) (c : code)               (* autocxx::CppLtRef::from_ptr(c) *)
| KByRaw (x : string) (body : list code)         (* by_raw(move |x| { body }) *)
| KLet (x : string) (c : code)                   (* let x = c; or let mut x = c; *)
| KUnsafe (body : list code).                    (* unsafe { body } *)

(** engine/src/conversion/codegen_rs/mod.rs:1109-1119 [MaybeUnsafeStmt]. *)
Inductive maybe_unsafe := Normal (c : code) | NeedsUnsafe (c : code) | Binary (in_safe in_unsafe : code).

(** engine/src/conversion/codegen_rs/mod.rs:1146-1200 [maybe_unsafes_to_tokens]. *)
Fixpoint group_unsafe (cur : option (list code)) (items : list maybe_unsafe) : list code :=
  let flush := match cur with Some l => [KUnsafe l] | None => [] end in
  match items with
  | [] => flush
  | NeedsUnsafe c :: r => group_unsafe (Some (match cur with Some l => l ++ [c] | None => [c] end)) r
  | Normal c :: r | Binary c _ :: r => flush ++ c :: group_unsafe None r
  end.
Definition maybe_unsafes_to_tokens (items : list maybe_unsafe) (already_unsafe : bool) : list code :=
  if already_unsafe then map (fun i => match i with Normal c | NeedsUnsafe c | Binary _ c => c end) items
  else group_unsafe None items.

(** engine/src/conversion/codegen_rs/function_wrapper_rs.rs:22-32 [RustParamConversion]. *)
Inductive rust_param := RParam (t : rty) (locals : list maybe_unsafe) (c : code) (needs_unsafe : bool) | RReturn (t : ty).

Definition space_var (n : nat) : string := "space" +++ dec n.
(** engine/src/conversion/codegen_rs/function_wrapper_rs.rs:35-220 [rust_conversion]; [None] is a panic. *)
Definition rust_conversion (p : policy) (var : code) (counter : nat) : option (nat * rust_param) :=
  let simple t c u := Some (counter, RParam (RTy t) [] c u) in
  let value handler trait :=
    let x := space_var counter in
    Some (S counter,
          RParam (RImpl trait (Some (pol_type p)) false)
            [Normal (KLet x (KHandler handler));
             Binary (KLet x (KUnsafe [KPinNew x])) (KLet x (KPinNew x));
             NeedsUnsafe (KPopulate x var)]
            (KGetPtr x) false) in
  match pol_rust p with
  | RcNone => simple (converted_rust_type p) var false
  | RcFromStr => Some (counter, RParam (RImpl "ToCppString" None false) [] (KIntoCpp var) false)
  | RcToBoxedUpHolder sub =>
      simple (TPath ["autocxx"; "subclass"] "CppSubclassRustPeerHolder" [TPath ["super"] (qn_item sub) []])
             (KBoxNew (sc_holder sub) var) false
  | RcFromPinMaybeUninitToPtr =>
      match pol_type p with
      | TPtr _ e => simple (TPath ["core"; "pin"] "Pin" [TRef true None (TPath ["core"; "mem"] "MaybeUninit" [e])]) (KUninitPtr var) true
      | _ => None
      end
  | RcFromPinMoveRefToPtr =>
      match pol_type p with
      | TPtr _ e => simple (TPath ["core"; "pin"] "Pin" [TPath ["autocxx"; "moveit"] "MoveRef" [TNonType "'_"; e]]) (KMoveRefPtr var) true
      | _ => None
      end
  | RcFromTypeToPtr => match pol_type p with TPtr _ e => simple (TRef true None e) var false | _ => None end
  | RcFromValueParamToPtr => value "ValueParamHandler" "autocxx::ValueParam"
  | RcFromRValueParamToPtr => value "RValueParamHandler" "autocxx::RValueParam"
  | RcFromPlacementParamToNewReturn => match pol_type p with TPtr _ e => Some (counter, RReturn e) | _ => None end
  | RcFromPointerToReferenceWrapper =>
      match pol_type p with
      | TPtr m e => simple (TPath ["autocxx"] (if m then "CppMutLtRef" else "CppLtRef") [TNonType "'a"; e]) (KFromPtr m var) false
      | _ => None
      end
  | RcFromReferenceWrapperToPointer =>
      match pol_type p with
      | TPtr m e => simple (TPath ["autocxx"] (if m then "CppMutRef" else "CppRef") [e]) (KAsPtr m var) false
      | _ => None
      end
  end.

(** engine/src/conversion/codegen_rs/lifetime.rs:187-216 [add_lifetime_to_pinned_reference]: the new
    arguments of the last segment. *)
Inductive pin_res := PinNot | PinPanic | PinOk (args : list ty).
Definition add_lifetime_to_pinned_reference (lead : list string) (id : string) (args : list ty) : pin_res :=
  match lead ++ [id] with
  | [] => PinOk args
  | a :: r1 =>
      if negb (String.eqb a "std" || String.eqb a "core") then PinNot
      else match r1 with
           | [] => PinOk args
           | b :: r2 =>
               if negb (String.eqb b "pin") then PinNot
               else match r2 with
                    | [] => PinOk args
                    | c :: r3 =>
                        if negb (String.eqb c "Pin") then PinNot
                        else match r3, args with
                             | [], TRef m _ e :: more => PinOk (TRef m (Some "'a") e :: more)
                             | _, _ => PinPanic
                             end
                    end
           end
  end.

Section Lifetimes.
Variable non_pod : list qname.

(** The type under a reference, if it is a path. *)
Definition ref_to_path (t : rty) : option (list string * string) :=
  match t with RTy (TRef _ _ (TPath lead id _)) => Some (lead, id) | _ => None end.
(** engine/src/conversion/codegen_rs/lifetime.rs:140-157 [reference_parameter_is_non_pod_reference];
    [receiver] says that a parameter called [self] was parsed as a receiver. [None] is a panic. *)
Fixpoint reference_parameter_is_non_pod_reference (receiver : bool) (ps : list wparam) : option bool :=
  match ps with
  | [] => Some false
  | p :: r =>
      if receiver && String.eqb (wp_name p) "self" then reference_parameter_is_non_pod_reference receiver r
      else match ref_to_path (wp_type p) with
           | Some (lead, id) =>
               match path_name lead id with
               | None => None
               | Some q => if qmem q non_pod then Some true else reference_parameter_is_non_pod_reference receiver r
               end
           | None => reference_parameter_is_non_pod_reference receiver r
           end
  end.
(** engine/src/conversion/codegen_rs/lifetime.rs:159-176 [return_type_is_pod_or_known_type_reference];
    [None] is a panic. *)
Definition return_type_is_pod_or_known_type_reference (rt : option rty) : option bool :=
  match rt with
  | Some t => match ref_to_path t with
              | Some (lead, id) => match path_name lead id with Some q => Some (negb (qmem q non_pod)) | None => None end
              | None => Some false
              end
  | None => Some false
  end.

(** engine/src/conversion/codegen_rs/lifetime.rs:89-114: the return type with the lifetime added. *)
Inductive new_ret := NrPanic | NrNone | NrSome (t : rty).
Definition ret_with_lifetime (rt : option rty) : new_ret :=
  match rt with
  | Some (RTy (TRef m _ e)) => NrSome (RTy (TRef m (Some "'a") e))
  | Some (RTy (TPath lead id args)) =>
      match add_lifetime_to_pinned_reference lead id args with
      | PinPanic => NrPanic
      | PinNot => NrNone
      | PinOk args' => NrSome (RTy (TPath lead id args'))
      end
  | Some (RImpl tr a _) => NrSome (RImpl tr a true)
  | _ => NrNone
  end.
(** engine/src/conversion/codegen_rs/lifetime.rs:121-134: a parameter with the lifetime added; [None] is a
    panic. *)
Definition param_with_lifetime (p : wparam) : option wparam :=
  match wp_type p with
  | RTy (TPath lead id args) =>
      match add_lifetime_to_pinned_reference lead id args with
      | PinPanic => None
      | PinNot => Some p
      | PinOk args' => Some (WP (wp_mut p) (wp_name p) (RTy (TPath lead id args')))
      end
  | RTy (TRef m _ e) => Some (WP (wp_mut p) (wp_name p) (RTy (TRef m (Some "'a") e)))
  | RImpl tr a _ => Some (WP (wp_mut p) (wp_name p) (RImpl tr a true))
  | _ => Some p
  end.
Fixpoint params_with_lifetime (ps : list wparam) : option (list wparam) :=
  match ps with
  | [] => Some []
  | p :: r => match param_with_lifetime p, params_with_lifetime r with
              | Some p', Some r' => Some (p' :: r')
              | _, _ => None
              end
  end.

(** A signature: whether [<'a>] is declared, the parameters and the result. *)
Record sig := Sig { sg_lt : bool; sg_params : list wparam; sg_ret : option rty }.
(** engine/src/conversion/codegen_rs/lifetime.rs:37-138 [add_explicit_lifetime_if_necessary]; [None] is a
    panic. *)
Definition add_explicit_lifetime_if_necessary (details : list arg) (receiver : bool) (ps : list wparam)
    (rt : option rty) (ret_conv : option policy) : option sig :=
  let has_mutable_receiver :=
    existsb (fun pd => match a_self pd with Some (_, MMutable) => negb (a_placement pd) | _ => false end) details in
  let any_param_is_reference :=
    existsb (fun pd => a_lifetime pd || match pol_rust (a_conv pd) with RcFromValueParamToPtr => true | _ => false end) details in
  let any_param_is_cppref :=
    existsb (fun pd => match pol_rust (a_conv pd) with RcFromReferenceWrapperToPointer => true | _ => false end) details in
  let return_type_is_impl := match rt with Some (RImpl _ _ _) => true | _ => false end in
  let return_type_is_cppref :=
    match ret_conv with Some p => match pol_rust p with RcFromPointerToReferenceWrapper => true | _ => false end | None => false end in
  match reference_parameter_is_non_pod_reference receiver ps, return_type_is_pod_or_known_type_reference rt with
  | Some non_pod_ref_param, Some ret_type_pod =>
      if negb (has_mutable_receiver || (non_pod_ref_param && ret_type_pod) || (return_type_is_impl && any_param_is_reference)
               || return_type_is_cppref || any_param_is_cppref)
      then Some (Sig false ps rt)
      else match ret_with_lifetime rt with
           | NrPanic => None
           | NrNone => Some (Sig (return_type_is_cppref || any_param_is_cppref) ps rt)
           | NrSome rt' => match params_with_lifetime ps with Some ps' => Some (Sig true ps' (Some rt')) | None => None end
           end
  | _, _ => None
  end.
End Lifetimes.

(** engine/src/conversion/codegen_rs/fun_codegen.rs:46-58 [bridge_token], [wrapper_token]. *)
Definition bridge_token (u : unsafety) : bool := match u with UNone => false | _ => true end.
Definition wrapper_token (u : unsafety) : bool := match u with UAlways => true | _ => false end.

(** engine/src/conversion/codegen_rs/fun_codegen.rs:254-295: what the parameters contribute. *)
Record parts := Parts {
  pa_params : list wparam; pa_locals : list maybe_unsafe; pa_args : list code; pa_ptr : option code;
  pa_ret : option rty; pa_unsafe : bool; pa_counter : nat }.
Definition new_type : string := "autocxx::moveit::new::New".
Fixpoint param_parts (avoid_self : bool) (details : list arg) (acc : parts) : option parts :=
  match details with
  | [] => Some acc
  | pd :: r =>
      let name := if (match a_self pd with Some _ => true | None => false end) && negb avoid_self then "self" else a_name pd in
      match rust_conversion (a_conv pd) (KVar name) (pa_counter acc) with
      | None => None
      | Some (k, RParam t locals c u) =>
          param_parts avoid_self r
            (Parts (if a_placement pd then pa_params acc
                    else pa_params acc ++ [WP (match pol_rust (a_conv pd) with RcFromPinMoveRefToPtr => true | _ => false end) name t])
                   (pa_locals acc ++ locals) (pa_args acc ++ [c])
                   (if a_placement pd then Some c else pa_ptr acc)
                   (pa_ret acc) (u || pa_unsafe acc) k)
      | Some (k, RReturn t) =>
          param_parts avoid_self r
            (Parts (pa_params acc) (pa_locals acc) (pa_args acc ++ [KVar (a_name pd)]) (Some (KVar (a_name pd)))
                   (Some (RImpl new_type (Some t) false)) (pa_unsafe acc) k)
      end
  end.

(** engine/src/conversion/codegen_rs/fun_codegen.rs:461-470 [reorder_parameters]; [None] is a panic. *)
Fixpoint reorder (ps : list wparam) (order : list nat) : option (list wparam) :=
  match order with
  | [] => Some []
  | n :: r => match nth_error ps n, reorder ps r with Some p, Some q => Some (p :: q) | _, _ => None end
  end.

(** What a generated function is: its signature, its body, and whether it is declared [unsafe]. *)
Record rust_fn := RF { rf_unsafe : bool; rf_name : string; rf_sig : sig; rf_body : list code }.

(** engine/src/conversion/codegen_rs/fun_codegen.rs:238-378 [common_parts]; [None] is a panic. The pointer
    given to [by_raw] is a pattern, so only a variable will do. *)
Definition common_parts (non_pod : list qname) (fa : fn_analysis) (avoid_self : bool) (order : option (list nat))
    (rt : option rty) : option (sig * list code) :=
  match param_parts avoid_self (fa_details fa) (Parts [] [] [] None rt false 0) with
  | None => None
  | Some pa =>
      match (match order with Some o => reorder (pa_params pa) o | None => Some (pa_params pa) end) with
      | None => None
      | Some wps =>
          match add_explicit_lifetime_if_necessary non_pod (fa_details fa) true wps (pa_ret pa) (fa_ret_conv fa) with
          | None => None
          | Some sg =>
              let call := KCall (fa_bridge fa) (pa_args pa) in
              let call_body := if pa_unsafe pa || (match fa_unsafe fa with UJustBridge => true | _ => false end)
                               then NeedsUnsafe call else Normal call in
              let context := match fa_unsafe fa with UAlways => true | _ => false end in
              let converted :=
                match fa_ret_conv fa with
                | Some rc =>
                    if rust_work_needed rc then
                      match maybe_unsafes_to_tokens [call_body] context with
                      | [expr] =>
                          match rust_conversion rc expr (pa_counter pa) with
                          | Some (_, RParam t [] c u) => Some (if u then NeedsUnsafe c else Normal c, Some t)
                          | _ => None
                          end
                      | _ => None
                      end
                    else Some (call_body, sg_ret sg)
                | None => Some (call_body, sg_ret sg)
                end in
              match converted with
              | None => None
              | Some (call_body, ret_type) =>
                  match (match pa_ptr pa with
                         | Some (KVar x) =>
                             let closure := pa_locals pa ++ [Binary (KLet x (KUnsafe [KUninitPtr (KVar x)])) (KLet x (KUninitPtr (KVar x))); call_body] in
                             Some [NeedsUnsafe (KByRaw x (maybe_unsafes_to_tokens closure true))]
                         | Some _ => None
                         | None => Some (pa_locals pa ++ [call_body])
                         end) with
                  | None => None
                  | Some stmts => Some (Sig (sg_lt sg) (sg_params sg) ret_type, maybe_unsafes_to_tokens stmts context)
                  end
              end
          end
      end
  end.

(** engine/src/conversion/analysis/fun/mod.rs:888-898, 926-934, 1573-1586, 1617-1630: the
    [TraitMethodDetails] for each trait; [trait_call_is_unsafe] is never set. *)
Definition trait_order (tk : trait_method_kind) : bool * option (list nat) :=
  match tk with
  | TCopyConstructor | TMoveConstructor => (true, Some [1; 0])
  | _ => (false, None)
  end.

(** What is generated for a function. [o_bridge] is the declaration in the cxx bridge; the others are
    the wrapper, and whether the bridge function itself is re-exported. *)
Record fn_output := FO { o_bridge : option rust_fn; o_wrapper : option rust_fn; o_reexport : option (option string) }.
Definition nothing : fn_output := FO None None None.

(** engine/src/conversion/codegen_rs/unqualify.rs:72-95, on the types of this model. *)
Definition unqualify_rty (t : rty) : rty := match t with RTy u => RTy (unqualify_type u) | i => i end.

(** engine/src/conversion/codegen_rs/fun_codegen.rs:88-221 [gen_function], 381-459
    [generate_method_impl], [generate_trait_impl], [generate_constructor_impl],
    [generate_function_impl]. Attributes and documentation are not modelled; the name of a trait method is
    not either. *)
Definition gen_function (non_pod : list qname) (fa : fn_analysis) : option fn_output :=
  if (match fa_ignore fa with Some _ => true | None => false end) || negb (fa_external fa) then Some nothing
  else
    let rt := match fa_ret fa with Some t => Some (RTy t) | None => None end in
    match add_explicit_lifetime_if_necessary non_pod (fa_details fa) false
            (map (fun p => WP false (fst p) (RTy (snd p))) (fa_params fa)) rt (fa_ret_conv fa) with
    | None => None
    | Some bridge_sig =>
        let wrapper (avoid_self : bool) order rt' :=
          match common_parts non_pod fa avoid_self order rt' with
          | Some (sg, body) => Some (Some (RF (wrapper_token (fa_unsafe fa)) (fa_rust fa) sg body))
          | None => None
          end in
        let w :=
          if fa_rust_wrapper fa then
            match fa_kind fa with
            | FMethod (MConstructor _) _ => wrapper true None (Some (RImpl new_type (Some (TPath [] "Self" [])) false))
            | FMethod _ _ => wrapper false None rt
            | FTraitMethod tk _ => wrapper (fst (trait_order tk)) (snd (trait_order tk)) rt
            | FFunction => wrapper false None rt
            end
          else Some None in
        match w with
        | None => None
        | Some wr =>
            Some (FO (Some (RF (bridge_token (fa_unsafe fa)) (fa_bridge fa)
                              (Sig (sg_lt bridge_sig)
                                   (map (fun p => WP (wp_mut p) (wp_name p) (unqualify_rty (wp_type p))) (sg_params bridge_sig))
                                   (match sg_ret bridge_sig with Some t => Some (unqualify_rty t) | None => None end))
                              []))
                     wr
                     (if fa_rust_wrapper fa then None
                      else match fa_kind fa with
                           | FFunction => Some (match fa_rename fa with RnInOutputMod a => Some a | _ => None end)
                           | _ => None
                           end))
        end
    end.
