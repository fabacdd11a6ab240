(** engine/src/parse_callbacks.rs: what bindgen reports about C++ items while it parses, and how it
    is looked up by qualified name afterwards. *)
From Coq Require Import Arith.
From Verif Require Import Base.

(** ** The marker which autocxx has bindgen append to function names *)

(** The literal in engine/src/types.rs:285-297 [strip_bindgen_original_suffix]. *)
Definition marker : string := "_bindgen_original".

(** What is before and after the last occurrence of [m]: the groups which the
    greedy first group of the regular expression leaves. *)
Fixpoint sdrop (n : nat) (s : string) : string :=
  match n, s with
  | S n', String _ s' => sdrop n' s'
  | _, _ => s
  end.
Fixpoint split_last (m s : string) : option (string * string) :=
  match s with
  | EmptyString => None
  | String c s' =>
      match split_last m s' with
      | Some (a, b) => Some (String c a, b)
      | None => if starts_with m s then Some (EmptyString, sdrop (String.length m) s) else None
      end
  end.

(** The second group: any number of digits. Simplified: ASCII digits only, as in C++ identifiers
    written by bindgen. *)
Definition is_digit (c : Ascii.ascii) : bool :=
  let n := Ascii.nat_of_ascii c in (48 <=? n) && (n <=? 57).
Fixpoint take_digits (s : string) : string :=
  match s with
  | String c s' => if is_digit c then String c (take_digits s') else EmptyString
  | EmptyString => EmptyString
  end.

(** engine/src/types.rs:285-297 [strip_bindgen_original_suffix]: the regular
    expression is any text, the marker, any number of digits, and is not
    anchored, so what follows is dropped. *)
Definition strip_bindgen_original_suffix (s : string) : string :=
  match split_last marker s with
  | Some (a, b) => a +++ take_digits b
  | None => s
  end.

(** engine/src/parse_callbacks.rs:276-290 [generated_name_override], for functions. *)
Definition generated_name_override (name : string) : string := name +++ marker.

(** ** Callbacks *)

(** Enumerations of autocxx-bindgen. *)
Inductive cb_visibility := CbPublic | CbProtected | CbPrivate.
Inductive cb_special := CbDefaultCtor | CbCopyCtor | CbMoveCtor | CbDtor | CbAssign.
Inductive cb_explicit := CbDeleted | CbDefaulted.
Inductive cb_virtual := CbVirtual | CbPureVirtual.

(** One call of engine/src/parse_callbacks.rs:269-367 [ParseCallbacks]; items are identified by
    numbers. [include_file] is left out: it records nothing about items. *)
Inductive event :=
| EvCppName (id : nat) (original : option string) (md : option nat)
| EvVirtual (id : nat) (v : cb_virtual)
| EvItem (id : nat) (final_name : string)      (* Struct, Enum, Union, Alias, Function *)
| EvMod (id : nat) (final_name : string) (parent : option nat)
| EvOther (id : nat)                           (* any other DiscoveredItem *)
| EvVisibility (id : nat) (v : cb_visibility)
| EvSpecial (id : nat) (k : cb_special)
| EvExplicit (id : nat) (e : cb_explicit)
| EvDiscards (id : nat).

(** [IndexMap]s keyed by item: association lists in order of first insertion. *)
Fixpoint nget {V} (k : nat) (m : list (nat * V)) : option V :=
  match m with
  | [] => None
  | (k', v) :: m' => if k' =? k then Some v else nget k m'
  end.
Fixpoint nset {V} (k : nat) (v : V) (m : list (nat * V)) : list (nat * V) :=
  match m with
  | [] => [(k, v)]
  | (k', v') :: m' => if k' =? k then (k', v) :: m' else (k', v') :: nset k v m'
  end.

(** engine/src/parse_callbacks.rs:123-133 [UnindexedParseCallbackResults] *)
Record results := Results {
  rs_original : list (nat * string);
  rs_virtuals : list (nat * cb_virtual);
  rs_root : option nat;
  rs_visibility : list (nat * cb_visibility);
  rs_special : list (nat * cb_special);
  rs_explicit : list (nat * cb_explicit);
  rs_discards : list (nat * unit);
  rs_names : list (nat * string);
  rs_mods : list (nat * nat) }.

(** engine/src/parse_callbacks.rs:121-123 [UnindexedParseCallbackResults] (derived [Default]) *)
Definition no_results : results := Results [] [] None [] [] [] [] [] [].

(** engine/src/parse_callbacks.rs:292-308 [denote_cpp_name], engine/src/parse_callbacks.rs:310-312 [denote_virtualness],
    engine/src/parse_callbacks.rs:314-341 [new_item_found], engine/src/parse_callbacks.rs:343-348 [denote_visibility],
    engine/src/parse_callbacks.rs:350-355 [denote_special_member], engine/src/parse_callbacks.rs:357-362 [denote_explicit],
    engine/src/parse_callbacks.rs:364-366 [denote_discards_template_param]. *)
Definition on_event (r : results) (e : event) : results :=
  match r with
  | Results o v rt vi sp ex di na mo =>
      match e with
      | EvCppName id on nm =>
          Results (match on with Some n => nset id (strip_bindgen_original_suffix n) o | None => o end)
            v rt vi sp ex di na
            (match nm with Some m => nset id m mo | None => mo end)
      | EvVirtual id x => Results o (nset id x v) rt vi sp ex di na mo
      | EvItem id n => Results o v rt vi sp ex di (nset id (strip_bindgen_original_suffix n) na) mo
      | EvMod id n (Some p) => Results o v rt vi sp ex di (nset id n na) (nset id p mo)
      | EvMod id n None => Results o v (Some id) vi sp ex di (nset id n na) mo
      | EvOther _ => r
      | EvVisibility id CbPublic => r
      | EvVisibility id x => Results o v rt (nset id x vi) sp ex di na mo
      | EvSpecial id k => Results o v rt vi (nset id k sp) ex di na mo
      | EvExplicit id x => Results o v rt vi sp (nset id x ex) di na mo
      | EvDiscards id => Results o v rt vi sp ex (nset id tt di) na mo
      end
  end.

Definition run_events (es : list event) : results := fold_left on_event es no_results.

(** ** The index *)

(** engine/src/parse_callbacks.rs:111-114 [NameAndParent] *)
Definition name_and_parent : Type := nat * string.
Definition np_eqb (a b : name_and_parent) : bool := (fst a =? fst b) && String.eqb (snd a) (snd b).

(** [IndexMap::insert] and [get] on the index. *)
Fixpoint iset (k : name_and_parent) (v : nat) (m : list (name_and_parent * nat)) : list (name_and_parent * nat) :=
  match m with
  | [] => [(k, v)]
  | (k', v') :: m' => if np_eqb k' k then (k', v) :: m' else (k', v') :: iset k v m'
  end.
Fixpoint iget (k : name_and_parent) (m : list (name_and_parent * nat)) : option nat :=
  match m with
  | [] => None
  | (k', v) :: m' => if np_eqb k' k then Some v else iget k m'
  end.

(** engine/src/parse_callbacks.rs:136-157 [index] *)
Definition index (r : results) : list (name_and_parent * nat) :=
  fold_left (fun m ip => match nget (fst ip) (rs_names r) with
                         | Some n => iset (snd ip, n) (fst ip) m
                         | None => m
                         end) (rs_mods r) [].

(** engine/src/parse_callbacks.rs:208-224 [mod_id_by_inner_namespace] *)
Fixpoint mod_id (ix : list (name_and_parent * nat)) (parent : nat) (ns : list string) : option nat :=
  match ns with
  | [] => Some parent
  | n :: ns' => match iget (parent, n) ix with Some c => mod_id ix c ns' | None => None end
  end.

(** engine/src/parse_callbacks.rs:187-196 [id_by_name], with engine/src/parse_callbacks.rs:198-202 [get_root_mod] and
    engine/src/parse_callbacks.rs:204-206 [mod_id_by_namespace]. [Err tt] is the panic when no root module was
    reported. *)
Definition id_by_name (r : results) (q : qname) : res (option nat) unit :=
  match rs_root r with
  | None => Err tt
  | Some root =>
      Ok (match mod_id (index r) root (qn_ns q) with
          | Some p => iget (p, qn_item q) (index r)
          | None => None
          end)
  end.

Definition fact {V} (m : results -> list (nat * V)) (r : results) (q : qname) : res (option V) unit :=
  match id_by_name r q with
  | Err e => Err e
  | Ok None => Ok None
  | Ok (Some id) => Ok (nget id (m r))
  end.

(** engine/src/parse_callbacks.rs:172-175 [get_fn_original_name], engine/src/parse_callbacks.rs:177-180 [get_original_name] *)
Definition get_original_name := fact rs_original.
(** engine/src/parse_callbacks.rs:182-185 [get_virtualness] *)
Definition get_virtualness := fact rs_virtuals.
(** engine/src/parse_callbacks.rs:226-230 [get_cpp_visibility] *)
Definition get_cpp_visibility (r : results) (q : qname) : res cb_visibility unit :=
  match fact rs_visibility r q with
  | Err e => Err e
  | Ok (Some v) => Ok v
  | Ok None => Ok CbPublic
  end.
(** engine/src/parse_callbacks.rs:232-235 [special_member_kind] *)
Definition special_member_kind := fact rs_special.
(** engine/src/parse_callbacks.rs:237-240 [get_deleted_or_defaulted] *)
Definition get_deleted_or_defaulted := fact rs_explicit.
(** engine/src/parse_callbacks.rs:242-246 [discards_template_param] *)
Definition discards_template_param (r : results) (q : qname) : res bool unit :=
  match fact rs_discards r q with
  | Err e => Err e
  | Ok (Some _) => Ok true
  | Ok None => Ok false
  end.
