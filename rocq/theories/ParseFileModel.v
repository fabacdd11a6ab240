(** Model of the parsing of a Rust source file for [include_cpp!] blocks and of the generation for all of them (engine/src/parse_file.rs). *)
From Verif Require Import Base ConfigModel DiscoverModel EngineModel.
Local Open Scope list_scope.

(** ** The file *)

(** An attribute: the last segment of its path, and whether it is just the path, has a list of tokens in
    brackets, or has a value. *)
Inductive attr_form := AttrPath | AttrList (ts : list tok) | AttrValue.
Record attr := Attr { at_last : string; at_form : attr_form }.

(** The items of a file. Simplified: a macro has the last segment of its path and its tokens; a module has whether one of its attributes is
    [cxx::bridge]; a struct has whether it has the attribute which exports it; all others are trees as the search sees them. *)
Inductive item :=
| IMacro (last : string) (body : list tok)
| IMod (bridge : bool) (id : string) (content : option (list item))
| IStruct (id : string) (exported : bool) (attrs : list attr)
| INode (n : node).

(** engine/src/parse_file.rs:274-279 [Segment]; a bridge has the name of its module. *)
Inductive segment := SAutocxx (e : engine) | SCxx (id : string) | SMod (l : list segment) | SOther.

(** engine/src/parse_file.rs:30-62 [ParseError] *)
Inductive perr :=
| PConflictingAllowlist | PSubclassSyntax | PSuperclassWithoutAutoAllowlist | PCodegen (e : eng_err) | PConflictingModNames
| PMultipleMods | PDiscovery (e : disc_err).
Inductive pres (A : Type) := POk (a : A) | PErr (e : perr) | PPanic.
Arguments POk {A} a. Arguments PErr {A} e. Arguments PPanic {A}.

(** ** The attribute of subclasses *)

(** parser/src/subclass_attrs.rs:24-57 [parse], with the check of [parse_args] that nothing is left. *)
Fixpoint parse_subclass_attrs (self_owned : bool) (superclass : option string) (ts : list tok) : option (bool * option string) :=
  match ts with
  | [] => Some (self_owned, superclass)
  | TIdent id :: ts' =>
      let next o s r :=
        match r with
        | [] => Some (o, s)
        | TComma :: r' => parse_subclass_attrs o s r'
        | _ => None
        end in
      if String.eqb id "self_owned" then next true superclass ts'
      else if String.eqb id "superclass" then
        match ts' with
        | TGroup [TStr s] :: ts'' =>
            match superclass with
            | Some _ => None
            | None =>
                match ts'' with
                | [] => Some (self_owned, Some s)
                | TComma :: r' => parse_subclass_attrs self_owned (Some s) r'
                | _ => None
                end
            end
        | _ => None
        end
      else None
  | _ => None
  end.

Section File.
Variable with_self : self_type -> signature -> signature.
Variable auto_allowlist : bool.

(** ** One item *)

(** engine/src/parse_file.rs:85-90 [State] *)
Record pstate := PState { ps_results : list segment; ps_supers : list subclass; ps_disc : discoveries }.
Definition empty_state : pstate := PState [] [] no_discoveries.

(** engine/src/parse_file.rs:93-194 [parse_item]: the search of an item. *)
Definition discover (mp : option rust_path) (n : node) (st : pstate) : pres pstate :=
  match search with_self mp None n (ps_disc st) with
  | Ok d => POk (PState (ps_results st ++ [SOther]) (ps_supers st) d)
  | Err DPanic => PPanic
  | Err e => PErr (PDiscovery e)
  end.

(** engine/src/parse_file.rs:93-194 [parse_item]: the subclass attribute of a struct. *)
Definition is_subclass_attr (a : attr) : bool := String.eqb (at_last a) "is_subclass" || String.eqb (at_last a) "subclass".
Definition struct_superclass (id : string) (attrs : list attr) (st : pstate) : pres pstate :=
  match find is_subclass_attr attrs with
  | None => POk st
  | Some a =>
      match at_form a with
      | AttrPath => POk st
      | AttrValue => PErr PSubclassSyntax
      | AttrList ts =>
          match parse_subclass_attrs false None ts with
          | None => PErr PSubclassSyntax
          | Some (_, None) => POk st
          | Some (_, Some super) =>
              if auto_allowlist then POk (PState (ps_results st) (ps_supers st ++ [SubC super id]) (ps_disc st))
              else PErr PSuperclassWithoutAutoAllowlist
          end
      end
  end.

(** engine/src/parse_file.rs:93-194 [parse_item] *)
Fixpoint parse_item (mp : option rust_path) (i : item) (st : pstate) : pres pstate :=
  match i with
  | IMacro last body =>
      if String.eqb last "include_cpp" then
        match engine_parse body with
        | Done e => POk (PState (ps_results st ++ [SAutocxx e]) (ps_supers st) (ps_disc st))
        | Fails e => PErr (PCodegen e)
        | Panics => PPanic
        end
      else discover mp (Node KOtherItem []) st
  | IMod true id _ => POk (PState (ps_results st ++ [SCxx id]) (ps_supers st) (ps_disc st))
  | IMod false id None => POk (PState (ps_results st ++ [SOther]) (ps_supers st) (ps_disc st))
  | IMod false id (Some l) =>
      let parse_items := fix parse_items (l : list item) (st : pstate) :=
        match l with
        | [] => POk st
        | i :: l' =>
            match parse_item (Some (deeper_path mp id)) i st with
            | POk st' => parse_items l' st'
            | e => e
            end
        end in
      match parse_items l empty_state with
      | POk ms => POk (PState (ps_results st ++ [SMod (ps_results ms)]) (ps_supers st ++ ps_supers ms) (extend (ps_disc st) (ps_disc ms)))
      | e => e
      end
  | IStruct id exported attrs =>
      match struct_superclass id attrs st with
      | POk st' => discover mp (Node (KStruct exported id) []) st'
      | e => e
      end
  | INode n => discover mp n st
  end.

Fixpoint parse_items (mp : option rust_path) (l : list item) (st : pstate) : pres pstate :=
  match l with
  | [] => POk st
  | i :: l' => match parse_item mp i st with POk st' => parse_items mp l' st' | e => e end
  end.

(** ** The whole file *)

Definition is_autocxx (s : segment) : bool := match s with SAutocxx _ => true | _ => false end.

(** [AllowlistEntry::Item] of each name, pushed in order. *)
Fixpoint push_all (l : list string) (a : allowlist) : cres allowlist :=
  match l with
  | [] => ROk a
  | s :: l' => match allow_push (AItem s) a with ROk a' => push_all l' a' | e => e end
  end.

(** engine/src/parse_file.rs:79-265 [parse_file_contents]: what is done to the first block. *)
Definition give (supers : list subclass) (d : discoveries) (e : engine) : pres engine :=
  match config_mut (set_subclasses (fun l => l ++ supers)) e with
  | Done e1 =>
      match (if auto_allowlist then push_all (d_cpp d) (cf_allowlist (en_config e1)) else ROk (cf_allowlist (en_config e1))) with
      | ROk a => POk (Engine (set_rust_types (fun l => l ++ d_types d) (set_extern_rust_funs (fun l => l ++ d_funs d) (set_allowlist a (en_config e1)))) (en_state e1))
      | RErr _ => PErr PConflictingAllowlist
      | RPanic => PPanic
      end
  | _ => PPanic
  end.
Fixpoint give_first (supers : list subclass) (d : discoveries) (l : list segment) : pres (list segment) :=
  match l with
  | [] => PPanic
  | SAutocxx e :: l' =>
      match give supers d e with
      | POk e' => if existsb is_autocxx l' then PErr PMultipleMods else POk (SAutocxx e' :: l')
      | PErr x => PErr x
      | PPanic => PPanic
      end
  | s :: l' => match give_first supers d l' with POk r => POk (s :: r) | e => e end
  end.
Definition complete (s : segment) : segment :=
  match s with SAutocxx e => SAutocxx (Engine (confirm_complete (en_config e)) (en_state e)) | _ => s end.

(** engine/src/parse_file.rs:79-265 [parse_file_contents]. Simplified: the file has been read and split into items. *)
Definition parse_file_contents (items : list item) : pres (list segment) :=
  match parse_items None items empty_state with
  | PErr e => PErr e
  | PPanic => PPanic
  | POk st =>
      let d := ps_disc st in
      let must_handle := found_rust d || negb (match ps_supers st with [] => true | _ => false end) || (auto_allowlist && found_allowlist d) in
      let r :=
        if must_handle then
          give_first (ps_supers st) d
            (if existsb is_autocxx (ps_results st) then ps_results st else ps_results st ++ [SAutocxx new_for_autodiscover])
        else POk (ps_results st) in
      match r with
      | POk l => POk (map complete l)
      | e => e
      end
  end.
End File.

(** ** Afterwards *)

(** engine/src/parse_file.rs:290-304 [get_autocxxes] *)
Fixpoint seg_autocxxes (s : segment) : list engine :=
  match s with
  | SAutocxx e => [e]
  | SMod l => flat_map seg_autocxxes l
  | _ => []
  end.
Definition get_autocxxes (l : list segment) : list engine := flat_map seg_autocxxes l.

(** engine/src/parse_file.rs:313-332 [get_cpp_buildables] *)
Inductive cpp_buildable := BEngine (e : engine) | BCxx (id : string).
Fixpoint seg_buildables (s : segment) : list cpp_buildable :=
  match s with
  | SAutocxx e => [BEngine e]
  | SCxx id => [BCxx id]
  | SMod l => flat_map seg_buildables l
  | SOther => []
  end.
Definition get_cpp_buildables (l : list segment) : list cpp_buildable := flat_map seg_buildables l.

(** engine/src/parse_file.rs:371-403 [resolve_all]: the segments afterwards, the module names found, and how it ended. [gen] is engine/src/lib.rs:452-540 [generate]. *)
Section Resolve.
Variable gen : engine -> engine * outcome unit.
Fixpoint resolve_seg (s : segment) (found : list string) : segment * list string * pres unit :=
  match s with
  | SAutocxx e =>
      let m := get_mod_name (en_config e) in
      if smem m found then (s, found, PErr PConflictingModNames)
      else
        match gen e with
        | (e', Done _) => (SAutocxx e', m :: found, POk tt)
        | (e', Fails x) => (SAutocxx e', m :: found, PErr (PCodegen x))
        | (e', Panics) => (SAutocxx e', m :: found, PPanic)
        end
  | SMod l =>
      let resolve_segs := fix resolve_segs (l : list segment) (found : list string) : list segment * list string * pres unit :=
        match l with
        | [] => ([], found, POk tt)
        | s :: l' =>
            match resolve_seg s found with
            | (s', f, POk _) => let '(r, f', o) := resolve_segs l' f in (s' :: r, f', o)
            | (s', f, e) => (s' :: l', f, e)
            end
        end in
      let '(r, f, o) := resolve_segs l found in (SMod r, f, o)
  | _ => (s, found, POk tt)
  end.
Fixpoint resolve_segs (l : list segment) (found : list string) : list segment * list string * pres unit :=
  match l with
  | [] => ([], found, POk tt)
  | s :: l' =>
      match resolve_seg s found with
      | (s', f, POk _) => let '(r, f', o) := resolve_segs l' f in (s' :: r, f', o)
      | (s', f, e) => (s' :: l', f, e)
      end
  end.
Definition resolve_all (l : list segment) : list segment * pres unit :=
  let '(r, _, o) := resolve_segs l [] in (r, o).
End Resolve.
