(** engine/src/conversion/analysis/abstract_types.rs: classes which cannot be instantiated. *)
From Verif Require Import Base ApiModel ApiVecModel ErrorReporterModel DepthFirstModel.

(** engine/src/conversion/mod.rs:241-243 [from_api_details]: the name of an item in C++. *)
Definition cpp_effective_name (i : api_name) : string :=
  match an_cpp i with Some c => c | None => qn_item (an_name i) end.

(** engine/src/conversion/analysis/abstract_types.rs:34-39 [Signature]; types are token strings. *)
Definition signature : Type := (string * list string) * mutability.
Definition mut_eqb (a b : mutability) : bool := match a, b with MConst, MConst | MMutable, MMutable => true | _, _ => false end.
Fixpoint strs_eqb (a b : list string) : bool :=
  match a, b with [], [] => true | x :: r, y :: r' => String.eqb x y && strs_eqb r r' | _, _ => false end.
Definition sig_eqb (a b : signature) : bool :=
  String.eqb (fst (fst a)) (fst (fst b)) && strs_eqb (snd (fst a)) (snd (fst b)) && mut_eqb (snd a) (snd b).
Definition sig_mem (s : signature) (l : list signature) : bool := existsb (sig_eqb s) l.
Definition sig_insert (s : signature) (l : list signature) : list signature := if sig_mem s l then l else l ++ [s].
(** engine/src/conversion/analysis/abstract_types.rs:42-62 [new]. *)
Definition sig_new (i : api_name) (params : list string) (m : mutability) : signature :=
  ((cpp_effective_name i, tl params), m).

(** engine/src/conversion/analysis/abstract_types.rs:68-71 [ClassAbstractState]: undefined, defined. *)
Definition class_state : Type := list signature * list signature.
Definition states := list (qname * class_state).
Definition state_of (q : qname) (st : states) : class_state := match qget q st with Some c => c | None => ([], []) end.

(** engine/src/conversion/analysis/abstract_types.rs:75-110: the methods of each class. *)
Definition note_method (st : states) (a : api) : states :=
  match api_kind_of a with
  | KFunction f =>
      match fn_kind_of f with
      | FMethod (MPureVirtual c) q =>
          let cs := state_of q st in qset q (sig_insert (sig_new (api_info a) (fn_params f) c) (fst cs), snd cs) st
      | FMethod (MVirtual c) q =>
          let cs := state_of q st in qset q (fst cs, sig_insert (sig_new (api_info a) (fn_params f) c) (snd cs)) st
      | _ => st
      end
  | _ => st
  end.

(** engine/src/conversion/analysis/abstract_types.rs:112-151: one struct; [acc] is [class_states] and
    [abstract_classes]. *)
Definition resolve_struct (acc : states * list qname) (a : api) : states * list qname :=
  let '(st, abs) := acc in
  match api_kind_of a with
  | KStruct s =>
      match st_kind s with
      | Pod | NonPod =>
          let own := state_of (aname a) st in
          let und := fold_left (fun u b => match qget b st with
                                           | Some bs => fold_left (fun u x => sig_insert x u) (fst bs) u
                                           | None => u
                                           end) (st_bases s) (fst own) in
          let und' := filter (fun u => negb (sig_mem u (snd own))) und in
          (qset (aname a) (und', snd own) st, match und' with [] => abs | _ => qinsert (aname a) abs end)
      | _ => acc
      end
  | _ => acc
  end.

Definition set_abstract (s : struct_info) : struct_info :=
  {| st_kind := Abstract; st_bases := st_bases s; st_field_deps := st_field_deps s; st_field_def_deps := st_field_def_deps s;
     st_num_generics := st_num_generics s; st_ctor_deps := st_ctor_deps s |}.
(** engine/src/conversion/analysis/abstract_types.rs:154-164: marking. *)
Definition mark (abs : list qname) (a : api) : api :=
  match api_kind_of a with
  | KStruct s => if qmem (aname a) abs then API (api_info a) (KStruct (set_abstract s)) else a
  | _ => a
  end.
(** engine/src/conversion/analysis/abstract_types.rs:168-179: constructors of abstract types go. *)
Definition keep (abs : list qname) (a : api) : bool :=
  match api_kind_of a with
  | KFunction f =>
      match fn_kind_of f with
      | FMethod (MConstructor _) q | FTraitMethod TCopyConstructor q | FTraitMethod TMoveConstructor q => negb (qmem q abs)
      | _ => true
      end
  | _ => true
  end.
(** engine/src/conversion/analysis/abstract_types.rs:192-213, the closure: abstract nested types are
    errors; [api.cpp_name()] is the recorded C++ name, if any. *)
Definition refuse_nested (s : unit) (a : api) : unit * res (list api) cpp_error :=
  (s, match api_kind_of a, an_cpp (api_info a) with
      | KStruct si, Some c => match st_kind si with Abstract => if contains "::" c then Err EAbstractNested else Ok [a] | _ => Ok [a] end
      | _, _ => Ok [a]
      end).

(** engine/src/conversion/analysis/abstract_types.rs:66-220 [mark_types_abstract]; [None] is a panic of the
    depth-first iterator. *)
Definition mark_types_abstract (builtin : string -> bool) (v : apivec) : option apivec :=
  match fields_and_bases_first api aname field_and_base_deps (av_apis v) with
  | TDone ord =>
      let abs := snd (fold_left resolve_struct ord (fold_left note_method (av_apis v) [], [])) in
      let marked := av_from_list builtin (map (mark abs) (av_apis v)) in
      Some (snd (convert_item_apis builtin refuse_nested tt (av_apis (av_retain (keep abs) marked)) av_new))
  | _ => None
  end.

(** engine/src/conversion/analysis/abstract_types.rs:218-239 [discard_ignored_functions]. *)
Definition discard_fn (s : unit) (a : api) : unit * res (list api) err_with_ctx :=
  (s, match api_kind_of a with
      | KFunction f => match fn_ignore f with Some e => Err e | None => Ok [a] end
      | _ => Ok [a]
      end).
Definition unchanged (s : unit) (a : api) : unit * res (list api) err_with_ctx := (s, Ok [a]).
Definition discard_ignored_functions (builtin : string -> bool) (v : apivec) : apivec :=
  snd (convert_apis builtin discard_fn unchanged unchanged unchanged tt (av_apis v) av_new).
