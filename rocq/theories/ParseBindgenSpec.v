(** What is meant by an item being inside a module, and by what each item of
    bindgen's output is supposed to contribute. *)
From Verif Require Import Base ApiModel ApiVecModel ErrorReporterModel NameCheckModel KnownTypesModel
  QNamesModel CallbacksModel ConfigModel ExternFunModel ParseBindgenModel.

(** [within ns l ns' sib it]: starting from the items [l] of namespace [ns],
    the item [it] is found in namespace [ns'], among the items [sib]. *)
Inductive within : list string -> list item -> list string -> list item -> item -> Prop :=
| w_here ns l it : In it l -> within ns l ns l it
| w_sub ns l id sub ns' sib it :
    In (IMod id sub) l -> within (ns ++ [id]) sub ns' sib it -> within ns l ns' sib it.

(** The functions of an [extern "C"] block, under their C++ names. *)
Definition declares_fn (it : item) (id : string) : Prop :=
  exists l x, it = IForeignMod l /\ In (FIFn x) l /\ id = strip_bindgen_original_suffix x.
(** An [impl] block with a function which stands for the extern function [id]. *)
Definition has_method (it : item) (ty id : string) : Prop :=
  exists fns f, it = IImpl (Some ty) fns /\ In f fns
    /\ id = strip_bindgen_original_suffix (match snd f with Some c => c | None => fst f end).

Section Spec.
Variable builtin : string -> bool.
Variable lexes : string -> bool.
Variable reserved : string -> bool.
Variable cb : results.
Variable cfg : config.

Definition valid (id : string) : Prop := validate_ident_ok_for_cxx lexes reserved id = VOk.
Definition invalid (id : string) (e : cpp_error) : Prop := validate_ident_ok_for_cxx lexes reserved id = VErr e.
Definition named_api (ns : list string) (id : string) (k : api_kind) (a : api) : Prop :=
  exists o, get_original_name cb (QN ns id) = Ok o /\ a = API (AN (QN ns id) o) k.
Definition error_api (ns : list string) (id : string) (e : cpp_error) (a : api) : Prop :=
  let c := ctx_for_item builtin id in a = API (AN (QN ns (ctx_id c)) None) (KIgnored e (Some c)).

(** Structs which autocxx provides itself. *)
Definition provided (ns : list string) (id : string) : Prop :=
  is_known_substitute_type (QN ns id) = true \/ is_known_type (QN ns id) = true
  \/ (ns = [] /\ is_rust_type cfg id = true).
Definition blocked (ns : list string) (id : string) : Prop :=
  In (to_cpp_name (QN ns id)) (cf_blocklist cfg).
(** A struct which the C++ parser reports as not public or as discarding a
    template parameter. *)
Definition fatal (ns : list string) (id : string) : Prop :=
  discards_template_param cb (QN ns id) = Ok true
  \/ exists v, get_cpp_visibility cb (QN ns id) = Ok v /\ v <> CbPublic.
Definition has_field (fields : list field) (n : string) : Prop := In (Some n) (map f_ident fields).
Definition forward (ns : list string) (id : string) (fields : list field) : Prop :=
  has_field fields "_unused" \/ (has_field fields "_address" /\ fatal ns id).

(** What the item itself adds. *)
Inductive direct (ns : list string) : item -> api -> Prop :=
| d_struct id fields a :
    ends_with "__bindgen_vtable" id = false -> valid id -> ~ provided ns id -> ~ blocked ns id -> ~ forward ns id fields ->
    named_api ns id (KStruct unanalyzed_struct) a -> direct ns (IStruct id fields) a
| d_forward id fields e a :
    ends_with "__bindgen_vtable" id = false -> valid id -> ~ provided ns id -> ~ blocked ns id -> forward ns id fields ->
    (fatal ns id -> e <> None) ->
    named_api ns id (KForwardDeclaration e) a -> direct ns (IStruct id fields) a
| d_enum id a : valid id -> ~ blocked ns id -> named_api ns id KEnum a -> direct ns (IEnum id) a
| d_use segs old new q a :
    new <> "bindgen_cchar16_t" -> from_type_path (segs ++ [old]) = Some q -> q <> QN ns new ->
    named_api ns new (KTypedef (Some q) []) a -> direct ns (IUse ("self" :: "super" :: segs) (URename old new)) a
| d_const id ty a : (forall t, ty = Some t -> valid t) -> named_api ns id KConst a -> direct ns (IConst id ty) a
| d_type id a : named_api ns id (KTypedef None []) a -> direct ns (IType id) a.

(** The errors reported for it. *)
Inductive item_error (ns : list string) : item -> api -> Prop :=
| e_struct id fields e a :
    ends_with "__bindgen_vtable" id = false -> invalid id e -> error_api ns id e a -> item_error ns (IStruct id fields) a
| e_enum id e a : invalid id e -> error_api ns id e a -> item_error ns (IEnum id) a
| e_use segs old new a :
    new <> "bindgen_cchar16_t" -> from_type_path (segs ++ [old]) = Some (QN ns new) ->
    error_api ns new EInfinitelyRecursiveTypedef a -> item_error ns (IUse ("self" :: "super" :: segs) (URename old new)) a.
Inductive static_error (ns : list string) : item -> api -> Prop :=
| e_static l id a : In (FIStatic id) l -> error_api ns id EStaticData a -> static_error ns (IForeignMod l) a.

(** The functions: their receiver is a type with an [impl] block in the same
    module which has the function, and there is none only if no block has it. *)
Definition receiver_ok (ns : list string) (sib : list item) (id : string) (r : option qname) : Prop :=
  match r with
  | Some q => exists b ty, In b sib /\ has_method b ty id /\ q = QN ns ty
  | None => forall b ty, In b sib -> ~ has_method b ty id
  end.
Definition function_api (ns : list string) (sib : list item) (it : item) (a : api) : Prop :=
  exists id r, declares_fn it id /\ receiver_ok ns sib id r /\ named_api ns id (KFunction (unanalyzed_fn id r)) a.

Definition yields (ns : list string) (sib : list item) (it : item) (a : api) : Prop :=
  direct ns it a \/ item_error ns it a \/ static_error ns it a \/ function_api ns sib it a.
End Spec.
