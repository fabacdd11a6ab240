(** engine/src/conversion/codegen_cpp: the C++ wrapper written for a function, and the overriding methods
    and superclass calls of a subclass. The code writes text; here the expressions are trees, printed by
    [show]. *)
From Verif Require Import Base QNamesModel KnownTypesModel ApiModel TypesModel CppTypesModel ConversionModel FnAnalysisModel.

(** C++ expressions, as far as the generator writes them. [XDestroy] carries the [using] declaration of
    engine/src/conversion/codegen_cpp/mod.rs:506-516; [XArgs] is a bare argument list; [XEmpty] is empty text. *)
Inductive cxp :=
| XVar (v : string)
| XParenDeref (e : cxp)
| XDeref (e : cxp)
| XMove (e : cxp)
| XAddr (e : cxp)
| XMakeUnique (t : string) (e : cxp)
| XCall (f : string) (args : list cxp)
| XMethod (r : cxp) (f : string) (args : list cxp)
| XPlacementNew (r : cxp) (t : string) (args : list cxp)
| XDestroy (objs : list cxp) (t : string) (scope : option (bool * string))
| XArgs (args : list cxp)
| XAlloc (t : string)
| XFree (t : string)
| XEmpty.

(** The text the generator writes for these. With [pass_obs_field] it joins arguments with a comma and no
    space; this always writes the space. *)
Fixpoint show (e : cxp) : string :=
  match e with
  | XVar v => v
  | XParenDeref e => "(*" +++ show e +++ ")"
  | XDeref e => "*" +++ show e
  | XMove e => "std::move(" +++ show e +++ ")"
  | XAddr e => "&" +++ show e
  | XMakeUnique t e => "std::make_unique<" +++ t +++ ">(" +++ show e +++ ")"
  | XCall f args => f +++ "(" +++ join ", " (map show args) +++ ")"
  | XMethod r f args => show r +++ "." +++ f +++ "(" +++ join ", " (map show args) +++ ")"
  | XPlacementNew r t args => "new (" +++ show r +++ ") " +++ t +++ "(" +++ join ", " (map show args) +++ ")"
  | XDestroy objs t scope =>
      let call := join ", " (map show objs) +++ "->" +++ t +++ "::~" +++ t +++ "()" in
      match scope with
      | None => call
      | Some (true, path) => "{ using " +++ t +++ " = " +++ path +++ "; " +++ call +++ "; " +++ t +++ "* pointless; (void)pointless; }"
      | Some (false, path) => "{ using " +++ path +++ "; " +++ call +++ "; }"
      end
  | XArgs args => join ", " (map show args)
  | XAlloc t => "new_appropriately<" +++ t +++ ">();"
  | XFree t => "delete_appropriately<" +++ t +++ ">(arg0);"
  | XEmpty => ""
  end.

Section Types.
Variable m : name_map.

(** engine/src/conversion/codegen_cpp/function_wrapper_cpp.rs:58-73 [unwrapped_type_as_string],
    [unique_ptr_wrapped_type]. *)
Definition unwrapped_type (p : policy) : conv string := type_to_cpp m (pol_type p).
Definition unique_ptr_wrapped_type (p : policy) : conv string :=
  cbind (unwrapped_type p) (fun s => COk ("std::unique_ptr<" +++ s +++ ">")).

(** engine/src/conversion/codegen_cpp/function_wrapper_cpp.rs:19-30 [unconverted_type]. *)
Definition unconverted_type (p : policy) : conv string :=
  match pol_cpp p with
  | CcFromUniquePtrToValue => unique_ptr_wrapped_type p
  | CcFromPtrToValue => cbind (unwrapped_type p) (fun s => COk (s +++ "*"))
  | _ => unwrapped_type p
  end.

(** engine/src/conversion/codegen_cpp/function_wrapper_cpp.rs:32-56 [converted_type]. *)
Definition converted_type (p : policy) : conv string :=
  match pol_cpp p with
  | CcFromValueToUniquePtr => unique_ptr_wrapped_type p
  | CcFromReferenceToPointer =>
      match pol_type p with
      | TPtr mut e => cbind (type_to_cpp m e) (fun s => COk ((if mut then "" else "const ") +++ s +++ "*"))
      | _ => CPanic
      end
  | _ => unwrapped_type p
  end.

(** engine/src/conversion/codegen_cpp/function_wrapper_cpp.rs:75-108 [cpp_conversion]. *)
Definition cpp_conversion (p : policy) (var : cxp) (is_return : bool) : conv (option cxp) :=
  match pol_cpp p with
  | CcNone | CcFromReturnValueToPlacementPtr => COk (Some var)
  | CcFromPointerToReference => COk (Some (XParenDeref var))
  | CcMove => COk (Some (XMove var))
  | CcFromUniquePtrToValue | CcFromPtrToMove => COk (Some (XMove (XDeref var)))
  | CcFromValueToUniquePtr => cbind (unconverted_type p) (fun t => COk (Some (XMakeUnique t var)))
  | CcFromPtrToValue => COk (Some (if is_return then XDeref var else XMove (XDeref var)))
  | CcIgnoredPlacementPtrParameter => COk None
  | CcFromReferenceToPointer => COk (Some (XAddr var))
  end.

(** engine/src/conversion/codegen_cpp/mod.rs:78-82 [ConversionDirection]. *)
Inductive direction := RustCallsCpp | CppCallsCpp | CppCallsRust.

(** [TypeConversionPolicy::inverse] where it is used as an operand: its panic ends the run. *)
Definition inverse_then {A} (p : policy) (k : policy -> conv A) : conv A :=
  match policy_inverse p with Some q => k q | None => CPanic end.

(** engine/src/conversion/codegen_cpp/mod.rs:384-393: the type of a parameter of the wrapper. *)
Definition param_type (d : direction) (p : policy) : conv string :=
  match d with
  | RustCallsCpp => unconverted_type p
  | CppCallsCpp => converted_type p
  | CppCallsRust => inverse_then p unconverted_type
  end.
(** engine/src/conversion/codegen_cpp/mod.rs:403-421: the return type of the wrapper. *)
Definition return_type (d : direction) (default : string) (r : option policy) : conv string :=
  match r with
  | None => COk default
  | Some p =>
      match d with
      | RustCallsCpp => if populate_return_value p then converted_type p else COk default
      | CppCallsCpp => unconverted_type p
      | CppCallsRust => inverse_then p converted_type
      end
  end.
(** engine/src/conversion/codegen_cpp/mod.rs:450-460: what a parameter becomes in the call. *)
Definition arg_expr (d : direction) (name : string) (p : policy) : conv (option cxp) :=
  match d with
  | RustCallsCpp => cpp_conversion p (XVar name) false
  | CppCallsCpp => COk (Some (XVar name))
  | CppCallsRust => inverse_then p (fun q => cpp_conversion q (XVar name) false)
  end.
(** engine/src/conversion/codegen_cpp/mod.rs:566-577: what the result of the call becomes. *)
Definition ret_expr (d : direction) (call : cxp) (p : policy) : conv (option cxp) :=
  match d with
  | RustCallsCpp => cpp_conversion p call true
  | CppCallsCpp => COk (Some call)
  | CppCallsRust => inverse_then p (fun q => cpp_conversion q call true)
  end.

(** The one statement of a wrapper's body: nothing, a call, [return e], or [new(place) t(e)]. *)
Inductive stmt := SNone | SDo (e : cxp) | SReturn (e : cxp) | SInto (place t : string) (e : cxp).

(** engine/src/conversion/codegen_cpp/mod.rs:87-93 [ExtraCpp], 421-433, 599-622: the pieces the declaration
    and definition are put together from. [d_super] is what a subclass's constructor passes to the
    superclass's. *)
Record cpp_def := Def {
  d_ret : string; d_name : string; d_params : list (string * string); d_const : bool;
  d_qual : option string; d_super : option (string * list cxp); d_body : stmt; d_inline : bool; d_allocators : bool }.

(** engine/src/conversion/codegen_cpp/mod.rs:353-379 [is_a_method], [get_arg_name]. *)
Definition is_a_method (avoid_this : bool) (k : cpp_fn_kind) : bool :=
  negb avoid_this && match k with CkMethod | CkConstMethod | CkConstructor => true | _ => false end.
Definition get_arg_name (method : bool) (i : nat) : string :=
  if method && (i =? 0) then "autocxx_gen_this" else "arg" +++ dec i.

(** [Iterator::enumerate]. *)
Definition enumerate {A} (l : list A) : list (nat * A) := combine (seq 0 (List.length l)) l.
Definition somes {A} (l : list (option A)) : list A := flat_map (fun o => match o with Some a => [a] | None => [] end) l.

(** engine/src/conversion/codegen_cpp/mod.rs:474-565: the call itself; [CPanic] is the [unwrap] of a missing
    receiver. The third component says that the allocation templates are needed. *)
Definition underlying_call (body : cpp_body) (receiver : option cxp) (args : list cxp) : conv (cxp * bool) :=
  match body with
  | CbCast => COk (XArgs args, false)
  | CbPlacementNew ns id =>
      match receiver with
      | Some r => COk (XPlacementNew r (map_name m (QN ns id)) args, false)
      | None => CPanic
      end
  | CbDestructor ns id =>
      let q := QN ns id in
      COk (XDestroy args (map_final_item m q)
             (match ns with
              | [] => None
              | _ => Some (match qget q m with Some _ => true | None => false end, map_name m q)
              end), false)
  | CbFunctionCall ns name =>
      match receiver with
      | Some r => COk (XMethod r name args, false)
      | None => COk (XCall (join "::" (ns ++ [name])) args, false)
      end
  | CbStaticMethodCall ns ty name => COk (XCall (join "::" (ns ++ [ty; name])) args, false)
  | CbConstructSuperclass _ => COk (XEmpty, false)
  | CbAlloc q => COk (XAlloc (map_name m q), true)
  | CbFree q => COk (XFree (map_name m q), true)
  end.

(** engine/src/conversion/codegen_cpp/mod.rs:566-597: the statement made of the call. [CPanic] is the
    [expect] on a conversion without a value. *)
Definition finish (d : direction) (ret : option policy) (place : option string) (call : cxp) : conv stmt :=
  match ret with
  | None => COk (if String.eqb (show call) "" then SNone else SDo call)
  | Some p =>
      cbind (ret_expr d call p) (fun o =>
        match o with
        | None => CPanic
        | Some e =>
            match place with
            | Some pl => cbind (type_to_cpp m (pol_type p)) (fun t => COk (SInto pl t e))
            | None => COk (SReturn e)
            end
        end)
  end.

(** engine/src/conversion/codegen_cpp/mod.rs:336-636 [generate_cpp_function_inner]. *)
Definition generate_cpp_function_inner (cf : cpp_function) (avoid_this : bool) (d : direction) (rust_decls : bool)
    (force_name : option string) : conv cpp_def :=
  let method := is_a_method avoid_this (cf_kind cf) in
  let named := enumerate (cf_args cf) in
  cbind (cmap (fun ip => cbind (param_type d (snd ip)) (fun t => COk (t, get_arg_name method (fst ip)))) named) (fun params =>
  cbind (return_type d (match cf_kind cf with CkSynthesizedConstructor => "" | _ => "void" end) (cf_ret cf)) (fun ret =>
  let place := hd_error (somes (map (fun ip => if is_placement_parameter (snd ip) then Some (get_arg_name method (fst ip)) else None) named)) in
  cbind (cmap (fun ip => arg_expr d (get_arg_name method (fst ip)) (snd ip)) named) (fun exprs =>
  let exprs := somes exprs in
  let receiver := if method then hd_error exprs else None in
  let rest := if method then tl exprs else exprs in
  let rest := match cf_payload cf with CbConstructSuperclass _ => tl rest | _ => rest end in
  let args := if cf_pass_obs cf then XDeref (XVar "obs") :: rest else rest in
  cbind (underlying_call (cf_payload cf) receiver args) (fun '(call, alloc) =>
  cbind (finish d (cf_ret cf) place call) (fun body =>
  COk (Def ret (match force_name with Some n => n | None => cf_wrapper_name cf end) params
         (match cf_kind cf with CkConstMethod => true | _ => false end)
         (match cf_qualification cf with Some q => Some (to_cpp_name q) | None => None end)
         (match cf_payload cf with CbConstructSuperclass s => Some (s, args) | _ => None end)
         body (negb rust_decls) alloc)))))).

(** engine/src/conversion/codegen_cpp/mod.rs:324-334 [generate_cpp_function]. *)
Definition generate_cpp_function (cf : cpp_function) : conv cpp_def :=
  generate_cpp_function_inner cf false RustCallsCpp false None.

(** engine/src/conversion/codegen_cpp/mod.rs:655-702: the overriding method of a subclass, and the method
    calling the superclass's version unless that is pure. [super_name] is the name
    [SubclassName::get_super_fn_name] gives. *)
Definition override_of (cf : cpp_function) : conv cpp_def :=
  generate_cpp_function_inner cf true CppCallsRust true (Some (cf_original_name cf)).
Definition super_call_of (sup : qname) (super_name : string) (cf : cpp_function) : conv cpp_def :=
  generate_cpp_function_inner
    (CppFn (CbStaticMethodCall (qn_ns sup) (qn_item sup) (cf_original_name cf)) super_name (cf_original_name cf)
       (cf_ret cf) (cf_args cf) (cf_kind cf) false (cf_qualification cf))
    true CppCallsCpp false None.
(** engine/src/conversion/codegen_cpp/mod.rs:716-728: a constructor of a subclass. *)
Definition constructor_of (cf : cpp_function) : conv cpp_def :=
  generate_cpp_function_inner cf false CppCallsCpp false None.
End Types.

(** engine/src/conversion/codegen_cpp/mod.rs:421-433, 599-622: the text of declaration and definition. *)
Definition show_stmt (s : stmt) : string :=
  match s with
  | SNone => ""
  | SDo e => show e +++ ";"
  | SReturn e => "return " +++ show e +++ ";"
  | SInto pl t e => "new(" +++ pl +++ ") " +++ t +++ "(" +++ show e +++ ");"
  end.
Definition show_signature (d : cpp_def) (qual : string) : string :=
  d_ret d +++ " " +++ qual +++ d_name d +++ "(" +++ join ", " (map (fun p => fst p +++ " " +++ snd p) (d_params d)) +++ ")"
    +++ (if d_const d then " const" else "").
Definition show_super (d : cpp_def) : string :=
  match d_super d with
  | None => ""
  | Some (s, args) =>
      let l := join ", " (map show args) in
      ": " +++ (if String.eqb l "" then "" else s +++ "(" +++ l +++ "), ") +++ "obs(std::move(arg0))"
  end.
Definition show_def (d : cpp_def) : string * option string :=
  let after := show_super d +++ " { " +++ show_stmt (d_body d) +++ " }" in
  let qual := match d_qual d with Some q => q +++ "::" | None => "" end in
  if d_inline d then ("inline " +++ show_signature d "" +++ " " +++ after, None)
  else (show_signature d "" +++ ";", Some (show_signature d qual +++ " " +++ after)).

(** engine/src/conversion/analysis/fun/subclass.rs:112-182 [create_subclass_function]: the C++ side of an
    overriding method. [rust_call_name] is the name of the Rust function it calls. *)
Definition subclass_cpp_impl (cpp : qname) (rust_call_name cpp_name : string) (const : bool) (an : fn_analysis) : cpp_function :=
  CppFn (CbFunctionCall [] rust_call_name) (fa_rust an) cpp_name (fa_ret_conv an) (map a_conv (tl (fa_details an)))
    (if const then CkConstMethod else CkMethod) true (Some cpp).
