(** The module tree of the generated Rust code.

    Models
    engine/src/conversion/codegen_rs/namespace_organizer.rs:16-64 [NamespaceEntries]
    (items grouped into a tree by the elements of their namespace) and
    engine/src/conversion/codegen_rs/mod.rs:302-370
    [generate_final_output_namespace, append_child_output_namespace]
    (the tree written out as nested modules, with the methods of a type gathered
    into one [impl] block). *)
From Verif Require Import Base.
Open Scope string_scope.
Open Scope list_scope.

(** Lexicographic comparison of the bytes of two strings: the order of Rust's
    [str], which is the order of the keys of the [BTreeMap]s at
    engine/src/conversion/codegen_rs/namespace_organizer.rs:18 and :45. *)
Definition str_lt (a b : string) : Prop := String.compare a b = Lt.

(** engine/src/conversion/codegen_rs/namespace_organizer.rs:16-19
    [NamespaceEntries]; the [BTreeMap] of children is the list of its pairs in
    iteration order, that is by key. *)
Inductive nstree (T : Type) : Type :=
| NsE (entries : list T) (children : list (string * nstree T)).
Arguments NsE {T}.

(** engine/src/conversion/codegen_rs/namespace_organizer.rs:31-33 [entries]. *)
Definition ns_entries {T} (t : nstree T) : list T := let (e, _) := t in e.

(** engine/src/conversion/codegen_rs/namespace_organizer.rs:35-37 [children]. *)
Definition ns_children {T} (t : nstree T) : list (string * nstree T) :=
  let (_, c) := t in c.

(** engine/src/conversion/codegen_rs/namespace_organizer.rs:27-29 [is_empty]. *)
Fixpoint ns_is_empty {T} (t : nstree T) : bool :=
  let (e, c) := t in
  match e with [] => true | _ => false end &&
  (fix all (l : list (string * nstree T)) : bool :=
     match l with
     | [] => true
     | (_, k) :: l => ns_is_empty k && all l
     end) c.

(** engine/src/conversion/codegen_rs/namespace_organizer.rs:49-52,
    inside sort_by_inner_namespace: [kids_by_child_ns.entry(k).or_insert_with(Vec::new)]
    followed by [list.push(api)]. *)
Fixpoint group_push {T} (k : string) (a : T) (m : list (string * list T))
  : list (string * list T) :=
  match m with
  | [] => [(k, [a])]
  | (k', v) :: m' =>
      match String.compare k k' with
      | Eq => (k', v ++ [a]) :: m'
      | Lt => (k, [a]) :: m
      | Gt => (k', v) :: group_push k a m'
      end
  end.

Section Organizer.
Variable T : Type.
(** engine/src/conversion/codegen_rs/namespace_organizer.rs:12-14 [HasNs]: the
    namespace of an item, outermost element first. *)
Variable ns : T -> list string.

(** engine/src/conversion/codegen_rs/namespace_organizer.rs:46-56,
    inside sort_by_inner_namespace: the body of the loop over the items, acting on
    [root.entries] and [kids_by_child_ns]. *)
Definition place (depth : nat) (acc : list T * list (string * list T)) (api : T)
  : list T * list (string * list T) :=
  match nth_error (ns api) depth with
  | Some k => (fst acc, group_push k api (snd acc))
  | None => (fst acc ++ [api], snd acc)
  end.

(** The loop at engine/src/conversion/codegen_rs/namespace_organizer.rs:58-61
    [sort_by_inner_namespace], with the recursive call [f]. The insertions happen
    in increasing order of distinct keys, so each goes to the end. *)
Fixpoint kids {A B} (f : A -> option B) (m : list (string * A))
  : option (list (string * B)) :=
  match m with
  | [] => Some []
  | (k, v) :: m' =>
      match f v, kids f m' with
      | Some t, Some l => Some ((k, t) :: l)
      | _, _ => None
      end
  end.

(** engine/src/conversion/codegen_rs/namespace_organizer.rs:39-64
    [sort_by_inner_namespace]. The recursion is not structural: [None] stands for
    running out of fuel. *)
Fixpoint sort_by_inner_namespace (fuel : nat) (depth : nat) (apis : list T)
  : option (nstree T) :=
  match fuel with
  | 0 => None
  | S fuel =>
      let (root, by_ns) := fold_left (place depth) apis ([], []) in
      match kids (sort_by_inner_namespace fuel (S depth)) by_ns with
      | Some l => Some (NsE root l)
      | None => None
      end
  end.

(** The longest namespace among the items: the fuel of [new_entries]. *)
Definition deepest (apis : list T) : nat :=
  fold_right (fun a n => Nat.max (List.length (ns a)) n) 0 apis.

(** engine/src/conversion/codegen_rs/namespace_organizer.rs:22-25 [new]. *)
Definition new_entries (apis : list T) : option (nstree T) :=
  sort_by_inner_namespace (S (deepest apis)) 0 apis.
End Organizer.
Arguments place {T}.
Arguments sort_by_inner_namespace {T}.
Arguments deepest {T}.
Arguments new_entries {T}.

Section Output.
(** Rust items, the contents of [impl] blocks, the types [impl] blocks are for and
    the keys of trait [impl] blocks
    (engine/src/conversion/codegen_rs/mod.rs:61-69). *)
Variables Item Entry Ty Key : Type.
Variable ty_eqb : Ty -> Ty -> bool.
Variable key_eqb : Key -> Key -> bool.

(** engine/src/conversion/codegen_rs/mod.rs:1095-1105 [RsCodegenResult]: only the
    parts which [append_child_output_namespace] reads. *)
Record rs_result := RsResult {
  rr_out : list Item;
  rr_impl : option (Ty * Entry);
  rr_trait : option (Key * Entry)
}.

(** The items [append_child_output_namespace] writes. The [use super::...] line
    which opens each module is not represented. *)
Inductive out :=
| OItem (i : Item)
| OImpl (ty : Ty) (entries : list Entry)
| OTrait (k : Key) (entries : list Entry)
| OMod (name : string) (items : list out).

(** engine/src/conversion/codegen_rs/mod.rs:323-326 and :329-332
    [append_child_output_namespace]: [map.entry(k).or_default().push(e)]. The
    association list stands for a [HashMap]. *)
Fixpoint hm_push {K} (eqb : K -> K -> bool) (k : K) (e : Entry)
  (m : list (K * list Entry)) : list (K * list Entry) :=
  match m with
  | [] => [(k, [e])]
  | (k', v) :: m' =>
      if eqb k k' then (k', v ++ [e]) :: m' else (k', v) :: hm_push eqb k e m'
  end.

(** engine/src/conversion/codegen_rs/mod.rs:321-334,
    inside append_child_output_namespace. *)
Definition hm_all {K} (eqb : K -> K -> bool) (l : list (option (K * Entry)))
  : list (K * list Entry) :=
  fold_left (fun m o => match o with Some (k, e) => hm_push eqb k e m | None => m end)
    l [].

(** A [HashMap] is iterated in an order which differs from run to run: the order
    is a parameter, which may also depend on the module the map was made for
    (engine/src/conversion/codegen_rs/mod.rs:335 and :342
    [append_child_output_namespace]). *)
Variable order_ty : list string -> list (Ty * list Entry) -> list (Ty * list Entry).
Variable order_key : list string -> list (Key * list Entry) -> list (Key * list Entry).

(** engine/src/conversion/codegen_rs/mod.rs:311-370
    [append_child_output_namespace]; [path] is the module being written. *)
Fixpoint append_child_output_namespace (path : list string)
  (t : nstree (qname * rs_result)) : list out :=
  let (es, cs) := t in
  flat_map (fun e => map OItem (rr_out (snd e))) es ++
  map (fun p => OImpl (fst p) (snd p))
    (order_ty path (hm_all ty_eqb (map (fun e => rr_impl (snd e)) es))) ++
  map (fun p => OTrait (fst p) (snd p))
    (order_key path (hm_all key_eqb (map (fun e => rr_trait (snd e)) es))) ++
  (fix children (l : list (string * nstree (qname * rs_result))) : list out :=
     match l with
     | [] => []
     | (n, k) :: l =>
         (if ns_is_empty k then []
          else [OMod n (append_child_output_namespace (path ++ [n]) k)]) ++
         children l
     end) cs.

(** engine/src/conversion/codegen_rs/mod.rs:302-309
    [generate_final_output_namespace], with the namespace of a result as at
    engine/src/conversion/codegen_rs/mod.rs:1080-1084 [get_namespace]. *)
Definition generate_final_output_namespace (input : list (qname * rs_result))
  : option (list out) :=
  match new_entries (fun e => qn_ns (fst e)) input with
  | Some t => Some (append_child_output_namespace [] t)
  | None => None
  end.
End Output.

(** Names which a module of the output brings into scope besides the generated
    items and inner modules. In the outermost module:
    engine/src/conversion/codegen_rs/mod.rs:233-250, inside rs_codegen (the modules
    [bindgen], whose name comes from engine/src/lib.rs:441, and [cxxbridge], then
    [use bindgen::root] and [use super::ffi as output]). In every other module:
    engine/src/conversion/codegen_rs/mod.rs:358-363,
    inside append_child_output_namespace ([use super::{cxxbridge, output, bindgen}]). *)
Definition module_uses (path : list string) : list string :=
  match path with
  | [] => ["bindgen"; "cxxbridge"; "root"; "output"]
  | _ => ["cxxbridge"; "output"; "bindgen"]
  end.

Arguments RsResult {Item Entry Ty Key}.
Arguments rr_out {Item Entry Ty Key}.
Arguments rr_impl {Item Entry Ty Key}.
Arguments rr_trait {Item Entry Ty Key}.
Arguments OItem {Item Entry Ty Key}.
Arguments OImpl {Item Entry Ty Key}.
Arguments OTrait {Item Entry Ty Key}.
Arguments OMod {Item Entry Ty Key}.
Arguments hm_push {Entry K}.
Arguments hm_all {Entry K}.
Arguments append_child_output_namespace {Item Entry Ty Key}.
Arguments generate_final_output_namespace {Item Entry Ty Key}.
