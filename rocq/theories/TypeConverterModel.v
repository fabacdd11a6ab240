(** engine/src/conversion/analysis/type_converter.rs: turning the types bindgen wrote into those given
    to cxx. *)
From Verif Require Import Base QNamesModel KnownTypesModel ApiModel NameCheckModel TypesModel TypedefsModel
  CppTypesModel ConcreteNamesModel.

(** engine/src/conversion/analysis/type_converter.rs:35-42 [TypeKind]. *)
Inductive tkind :=
| TkRegular | TkPointer | TkSubclassHolder (id : string) | TkReference | TkRValueReference | TkMutableReference.

(** The [Api::ConcreteType] made for a template instantiation: name, C++ definition, Rust definition. *)
Definition concrete_api : Type := qname * string * ty.

(** engine/src/conversion/analysis/type_converter.rs:47-52 [Annotated], for a type. *)
Record annotated := Ann { ann_ty : ty; ann_deps : list qname; ann_extra : list concrete_api; ann_kind : tkind }.

(** engine/src/conversion/analysis/type_converter.rs:86-91 [TypeConversionContext]. *)
Inductive tc_ctx := WithinReference | WithinStructField (params : list string) | WithinContainer | OuterType.
(** engine/src/conversion/analysis/type_converter.rs:94-96 [allow_instantiation_of_forward_declaration]. *)
Definition allow_forward (c : tc_ctx) : bool := match c with WithinReference => true | _ => false end.
(** engine/src/conversion/analysis/type_converter.rs:97-101 [allowed_generic_type]. *)
Definition allowed_generic_type (c : tc_ctx) (id : string) : bool :=
  match c with WithinStructField ps => negb (smem id ps) | _ => true end.

(** engine/src/conversion/analysis/type_converter.rs:112-120 [TypeConverter], without
    [concrete_templates], which is the state threaded through the conversion. [tc_blocked] is
    [config.is_on_blocklist]; [tc_rust_type] is [config.is_rust_type]; [tc_holder] is
    [config.is_subclass_holder]; [tc_lexes] and [tc_reserved] are the parameters of NameCheckModel. *)
Record tc_env := TCE {
  tc_found : list qname;
  tc_typedefs : list (qname * ty);
  tc_forward : list qname;
  tc_ignored : list qname;
  tc_names : name_map;
  tc_blocked : string -> bool;
  tc_rust_type : string -> bool;
  tc_holder : string -> bool;
  tc_lexes : string -> bool;
  tc_reserved : string -> bool
}.

(** Outcome of a conversion; [OFuel] appears only because the recursion is not structural (a typedef's
    target is converted again). The payloads of errors are reduced to a tag. *)
Inductive out (A : Type) : Type := OOk (a : A) | OErr (e : cpp_error) | OPanic | OFuel.
Arguments OOk {A} a. Arguments OErr {A} e. Arguments OPanic {A}. Arguments OFuel {A}.
Definition tbind {A B} (x : concretes * out A) (f : concretes -> A -> concretes * out B) : concretes * out B :=
  match x with
  | (cs, OOk a) => f cs a
  | (cs, OErr e) => (cs, OErr e)
  | (cs, OPanic) => (cs, OPanic)
  | (cs, OFuel) => (cs, OFuel)
  end.

(** engine/src/conversion/type_helpers.rs:78-93 [unwrap_bindgen_marker]: the first generic argument of
    the first segment, if that segment is the marker. In [ty] only the last segment has arguments. *)
Definition unwrap_marker (marker : string) (lead : list string) (id : string) (args : list ty) : option ty :=
  match lead, args with
  | [], a :: _ => if String.eqb id marker then match a with TNonType _ => None | _ => Some a end else None
  | _, _ => None
  end.
(** engine/src/conversion/type_helpers.rs:60-66 [marker_for_reference]. *)
Definition marker_for_reference (rvalue : bool) : string :=
  if rvalue then "__bindgen_marker_RValueReference" else "__bindgen_marker_Reference".
(** engine/src/conversion/type_helpers.rs:95-102 [unwrap_reference]: the mutability and pointee. *)
Definition unwrap_reference (rvalue : bool) (lead : list string) (id : string) (args : list ty) : option (bool * ty) :=
  match unwrap_marker (marker_for_reference rvalue) lead id args with
  | Some (TPtr m e) => Some (m, e)
  | _ => None
  end.
(** engine/src/conversion/type_helpers.rs:68-76 [type_is_reference], [matches_bindgen_marker]. *)
Definition type_is_reference (t : ty) (rvalue : bool) : bool :=
  match t with
  | TPath lead id _ => String.eqb (hd id lead) (marker_for_reference rvalue)
  | _ => false
  end.
(** engine/src/conversion/type_helpers.rs:104-110 [unwrap_has_unused_template_param], [unwrap_has_opaque]. *)
Definition unused_marker : string := "__bindgen_marker_UnusedTemplateParam".
Definition opaque_marker : string := "__bindgen_marker_Opaque".

(** engine/src/conversion/analysis/type_converter.rs:530-539 [ensure_pointee_is_valid]. *)
Definition ensure_pointee (e : ty) : option cpp_error :=
  match e with
  | TPath _ _ _ => None
  | TArray _ _ => Some (EOther "InvalidArrayPointee")
  | TPtr _ _ => Some (EOther "InvalidPointerPointee")
  | _ => Some (EOther "InvalidPointee")
  end.

(** engine/src/known_types.rs:99-113 [TypeDetails::to_type_path] with generic arguments put back. *)
Definition td_path (td : type_details) (args : list ty) : ty :=
  let q := new_from_cpp_name (td_rs td) in TPath (qn_ns q) (qn_item q) args.
(** engine/src/types.rs:193-206 [QualifiedName::to_type_path]. *)
Definition to_type_path (q : qname) : ty :=
  match kt_get q with Some td => td_path td [] | None => TPath ("output" :: qn_ns q) (qn_item q) [] end.

(** [::core::pin::Pin<&mut T>]. *)
Definition pin_mut (t : ty) : ty := TPath ["core"; "pin"] "Pin" [TRef true None t].

(** engine/src/conversion/analysis/type_converter.rs:356-365: [root] becomes [output] in the first
    segment. *)
Definition root_to_output (lead : list string) (id : string) : list string * string :=
  match lead with
  | [] => ([], if String.eqb id "root" then "output" else id)
  | f :: r => ((if String.eqb f "root" then "output" else f) :: r, id)
  end.

Section Convert.
Variable env : tc_env.
(** The namespace of the item in which the type occurs. *)
Variable ns : list string.

(** engine/src/conversion/analysis/type_converter.rs:587-652
    [confirm_inner_type_is_acceptable_generic_payload]. Simplification: an argument written [T<>]
    counts as having no generics. *)
Fixpoint confirm_payload (gb : cxx_generic) (args : list ty) : out tkind :=
  match args with
  | [] => OOk TkRegular
  | TPath lead id inner :: rest =>
      match path_name lead id with
      | None => OPanic
      | Some q =>
          if negb (match gb with GRust => true | _ => false end) && qmem q (tc_forward env)
          then OErr (EOther "TypeContainingForwardDeclaration")
          else match gb with
               | GRust =>
                   match qn_ns q with
                   | _ :: _ => OErr (EOther "RustTypeWithAPath")
                   | [] => if negb (tc_rust_type env (qn_item q)) then OErr (EOther "BoxContainingNonRustType")
                           else if tc_holder env (qn_item q) then OOk (TkSubclassHolder (qn_item q))
                           else OOk TkRegular
                   end
               | GCppPtr =>
                   if permissible_within_unique_ptr q then confirm_payload gb rest
                   else OErr (EOther "InvalidTypeForCppPtr")
               | GCppVector =>
                   if negb (permissible_within_vector q) then OErr (EOther "InvalidTypeForCppVector")
                   else match inner with
                        | [] => confirm_payload gb rest
                        | _ => OErr (EOther "GenericsWithinVector")
                        end
               | GNot => confirm_payload gb rest
               end
      end
  | _ :: _ => OErr (EOther "TemplatedTypeContainingNonPathArg")
  end.

(** engine/src/conversion/analysis/type_converter.rs:403-419: an argument naming a generic parameter of
    the enclosing struct. *)
Definition mentions_param (c : tc_ctx) (args : list ty) : bool :=
  existsb (fun a => match a with TPath [] id _ => negb (allowed_generic_type c id) | _ => false end) args.

(** engine/src/conversion/analysis/type_converter.rs:280-304: qualify an unqualified path. *)
Definition qualify (lead : list string) (id : string) : conv (list string * string) :=
  let first := hd id lead in
  if String.eqb first "root" || String.eqb first "output" then COk (lead, id)
  else match path_name lead id with
       | None => CPanic
       | Some q =>
           if is_known_type q then COk (lead, id)
           else match lead with
                | _ :: _ => CErr (EOther "UnsupportedBuiltInType")
                | [] => COk (if qmem q (tc_found env) then ([], id) else ("output" :: ns, id))
                end
       end.

(** The recursive call: [convert_type]. *)
Variable rec : concretes -> tc_ctx -> ty -> concretes * out annotated.

(** engine/src/conversion/analysis/type_converter.rs:449-478 [convert_punctuated]: the arguments, the
    types met and the APIs made. *)
Fixpoint convert_args (cs : concretes) (args : list ty) : concretes * out (list ty * list qname * list concrete_api) :=
  match args with
  | [] => (cs, OOk ([], [], []))
  | a :: rest =>
      match a with
      | TNonType _ =>
          tbind (convert_args cs rest) (fun cs1 r => let '(l, d, x) := r in (cs1, OOk (a :: l, d, x)))
      | _ =>
          tbind (rec cs WithinContainer a) (fun cs1 i =>
          tbind (convert_args cs1 rest) (fun cs2 r => let '(l, d, x) := r in
            (cs2, OOk (ann_ty i :: l, ann_deps i ++ d, ann_extra i ++ x))))
      end
  end.

(** engine/src/conversion/analysis/type_converter.rs:343-439: from the resolved path [lead::id<args>],
    whose name is [tn], on. [innerty.extra_apis] (line 379) is dropped, as in the code. *)
Definition convert_resolved (cs : concretes) (c : tc_ctx) (tn : qname) (deps : list qname)
    (lead : list string) (id : string) (args : list ty) : concretes * out annotated :=
  let typ := match kt_get tn with
             | Some td => td_path td args
             | None => let '(l, i) := root_to_output lead id in TPath l i args
             end in
  match typ with
  | TPath lead' id' [] => (cs, OOk (Ann typ deps [] TkRegular))
  | TPath lead' id' args' =>
      match cxx_generic_behavior tn with
      | GNot =>
          if mentions_param c args' then (cs, OErr (EOther "ReferringToGenericTypeParam"))
          else match path_name lead' id' with
               | None => (cs, OPanic)
               | Some q =>
                   if qmem q (tc_ignored env) then (cs, OErr (EOther "ConcreteVersionOfIgnoredTemplate"))
                   else match type_to_cpp (tc_names env) typ with
                        | CErr e => (cs, OErr e)
                        | CPanic => (cs, OPanic)
                        | COk def =>
                            let '(cs1, n, made) := get_templated_typename cs def in
                            (cs1, OOk (Ann (to_type_path n) (qinsert n deps)
                                         (if made then [(n, def, typ)] else []) TkRegular))
                        end
               end
      | gb =>
          tbind (convert_args cs args') (fun cs1 r =>
            let '(l, d, _) := r in
            match confirm_payload gb l with
            | OOk k => (cs1, OOk (Ann (TPath lead' id' l) (deps ++ d) [] k))
            | OErr e => (cs1, OErr e)
            | OPanic => (cs1, OPanic)
            | OFuel => (cs1, OFuel)
            end)
      end
  | _ => (cs, OPanic)
  end.

(** engine/src/conversion/analysis/type_converter.rs:274-440
    [convert_type_path_which_is_not_a_reference]. *)
Definition convert_plain_path (cs : concretes) (c : tc_ctx) (lead : list string) (id : string) (args : list ty)
    : concretes * out annotated :=
  match qualify lead id with
  | CErr e => (cs, OErr e)
  | CPanic => (cs, OPanic)
  | COk (lead1, id1) =>
      match path_name lead1 id1 with
      | None => (cs, OPanic)
      | Some original_tn =>
          match validate_ident_ok_for_cxx (tc_lexes env) (tc_reserved env) (qn_item original_tn) with
          | VPanic => (cs, OPanic)
          | VErr e => (cs, OErr e)
          | VOk =>
              if tc_blocked env (to_cpp_name original_tn) then (cs, OErr (EOther "Blocked"))
              else match resolve_typedef (tc_typedefs env) original_tn with
                   | TdRecursive _ => (cs, OErr (EOther "InfinitelyRecursiveTypedef"))
                   | TdAnonymous => (cs, OErr (EOther "TypedefToTypeInAnonymousNamespace"))
                   | TdPanic => (cs, OPanic)
                   | TdFuel => (cs, OFuel)
                   | TdOk None => convert_resolved cs c original_tn [original_tn] lead1 id1 args
                   | TdOk (Some (TPath rl ri ra)) =>
                       match path_name rl ri with
                       | None => (cs, OPanic)
                       | Some resolved_tn =>
                           convert_resolved cs c resolved_tn (qinsert resolved_tn [original_tn]) rl ri ra
                       end
                   | TdOk (Some (TPtr m e)) => (cs, OOk (Ann (TPtr m e) [original_tn] [] TkPointer))
                   | TdOk (Some other) => (cs, OOk (Ann other [original_tn] [] TkRegular))
                   end
          end
      end
  end.

(** engine/src/conversion/analysis/type_converter.rs:242-271: an actual path, then the check for forward
    declarations and for [rust::Str]. *)
Definition convert_actual_path (cs : concretes) (c : tc_ctx) (lead : list string) (id : string) (args : list ty)
    : concretes * out annotated :=
  tbind (convert_plain_path cs c lead id args) (fun cs1 newp =>
    match ann_ty newp with
    | TPath nl ni _ =>
        match path_name nl ni with
        | None => (cs1, OPanic)
        | Some qn =>
            if negb (allow_forward c) && qmem qn (tc_forward env)
            then (cs1, OErr (EOther "TypeContainingForwardDeclaration"))
            else if should_dereference_in_cpp qn
                 then (cs1, OOk (Ann (TRef false None (TPath [] "str" [])) (ann_deps newp) (ann_extra newp) TkReference))
                 else (cs1, OOk newp)
        end
    | _ => (cs1, OOk newp)
    end).

(** engine/src/conversion/analysis/type_converter.rs:187-272 [convert_type_path]. *)
Definition convert_type_path (cs : concretes) (c : tc_ctx) (lead : list string) (id : string) (args : list ty)
    : concretes * out annotated :=
  match unwrap_marker unused_marker lead id args with
  | Some t => rec cs c t
  | None =>
  match unwrap_marker opaque_marker lead id args with
  | Some t => rec cs c t
  | None =>
  match unwrap_reference false lead id args with
  | Some (m, e) =>
      tbind (rec cs WithinReference e) (fun cs1 i =>
        (cs1, OOk (Ann (if m then pin_mut (ann_ty i) else TRef false None (ann_ty i)) (ann_deps i) (ann_extra i)
                     (if m then TkMutableReference else TkReference))))
  | None =>
  match unwrap_reference true lead id args with
  | Some (m, e) =>
      match ensure_pointee e with
      | Some er => (cs, OErr er)
      | None => tbind (rec cs WithinReference e) (fun cs1 i =>
                  (cs1, OOk (Ann (TPtr m (ann_ty i)) (ann_deps i) (ann_extra i) TkRValueReference)))
      end
  | None => convert_actual_path cs c lead id args
  end end end end.

(** engine/src/conversion/analysis/type_converter.rs:147-185 [convert_type] and 513-528 [convert_ptr]. *)
Definition convert_step (cs : concretes) (c : tc_ctx) (t : ty) : concretes * out annotated :=
  match t with
  | TPath lead id args => convert_type_path cs c lead id args
  | TRef m lt e =>
      tbind (rec cs WithinReference e) (fun cs1 i =>
        (cs1, OOk (Ann (TRef m lt (ann_ty i)) (ann_deps i) (ann_extra i) TkReference)))
  | TArray e n =>
      tbind (rec cs WithinReference e) (fun cs1 i =>
        (cs1, OOk (Ann (TArray (ann_ty i) n) (ann_deps i) (ann_extra i) TkRegular)))
  | TPtr m e =>
      match ensure_pointee e with
      | Some er => (cs, OErr er)
      | None => tbind (rec cs WithinReference e) (fun cs1 i =>
                  (cs1, OOk (Ann (TPtr m (ann_ty i)) (ann_deps i) (ann_extra i) TkPointer)))
      end
  | TOther _ | TNonType _ => (cs, OErr (EOther "UnknownType"))
  end.
End Convert.

(** [convert_type] with at most [fuel] nested calls. *)
Fixpoint convert_type (fuel : nat) (env : tc_env) (ns : list string) (cs : concretes) (c : tc_ctx) (t : ty)
    : concretes * out annotated :=
  match fuel with
  | 0 => (cs, OFuel)
  | S k => convert_step env ns (convert_type k env ns) cs c t
  end.
