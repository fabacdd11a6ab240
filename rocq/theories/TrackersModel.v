(** Naming of functions: engine/src/conversion/analysis/fun/overload_tracker.rs,
    bridge_name_tracker.rs, and the wrapper names of fun/mod.rs. *)
From Verif Require Import Base.

(** engine/src/conversion/analysis/fun/overload_tracker.rs:11 [Offsets]. *)
Definition offsets := list (string * nat).
Definition count_of (k : string) (o : offsets) : nat :=
  match sget k o with Some n => n | None => 0 end.

(** engine/src/conversion/analysis/fun/overload_tracker.rs:24-27 [OverloadTracker]. *)
Record overload_tracker := OT { by_fn : offsets; by_type : list (string * offsets) }.
Definition ot_empty : overload_tracker := OT [] [].

(** engine/src/conversion/analysis/fun/overload_tracker.rs:46-53: the tail of [get_name], on the
    chosen registry. *)
Definition take_name (reg : offsets) (name : string) : offsets * string :=
  let this_offset := count_of name reg in
  (sset name (S this_offset) reg,
   if this_offset =? 0 then name else name +++ dec this_offset).

(** engine/src/conversion/analysis/fun/overload_tracker.rs:38-54 [get_name]. *)
Definition ot_get_name (t : overload_tracker) (ty : option string) (name : string) : overload_tracker * string :=
  match ty with
  | Some ty =>
      let reg := match sget ty (by_type t) with Some r => r | None => [] end in
      let '(reg', out) := take_name reg name in
      (OT (by_fn t) (sset ty reg' (by_type t)), out)
  | None =>
      let '(reg', out) := take_name (by_fn t) name in (OT reg' (by_type t), out)
  end.

(** engine/src/conversion/analysis/fun/mod.rs:1524-1527 [get_overload_name] and 1638-1641
    [get_function_overload_name]: one tracker per namespace. The map is keyed by the
    namespace, represented here as a qualified name with an empty item. *)
Definition trackers := list (qname * overload_tracker).
Record overload_req := OReq { or_ns : list string; or_ty : option string; or_name : string }.
Definition overload_step (ts : trackers) (r : overload_req) : trackers * string :=
  let k := QN (or_ns r) "" in
  let t := match qget k ts with Some t => t | None => ot_empty end in
  let '(t', out) := ot_get_name t (or_ty r) (or_name r) in
  (qset k t' ts, out).
Fixpoint overload_run (ts : trackers) (rs : list overload_req) : trackers * list string :=
  match rs with
  | [] => (ts, [])
  | r :: rest =>
      let '(ts1, o) := overload_step ts r in
      let '(ts2, os) := overload_run ts1 rest in (ts2, o :: os)
  end.

(** engine/src/conversion/analysis/fun/bridge_name_tracker.rs:73-111 [get_unique_cxx_bridge_name]. *)
Record bridge_req := BReq { br_ty : option string; br_name : string; br_ns : list string }.
Definition bridge_found (r : bridge_req) : string :=
  if String.eqb (br_name r) "new" then "new_autocxx" else br_name r.
Definition bridge_prefix (r : bridge_req) : string :=
  join "_" (br_ns r ++ (match br_ty r with Some t => [t] | None => [] end) ++ [bridge_found r]).
Definition bridge_step (cs : offsets) (r : bridge_req) : offsets * string :=
  let found := bridge_found r in
  if count_of found cs =? 0 then (sset found 1 cs, found)
  else
    let prefix := bridge_prefix r in
    let count := count_of prefix cs in
    (sset prefix (S count) cs,
     if count =? 0 then prefix else prefix +++ "_autocxx" +++ dec count).
Fixpoint bridge_run (cs : offsets) (rs : list bridge_req) : offsets * list string :=
  match rs with
  | [] => (cs, [])
  | r :: rest =>
      let '(cs1, o) := bridge_step cs r in
      let '(cs2, os) := bridge_run cs1 rest in (cs2, o :: os)
  end.

(** parser/src/config.rs:409-411 [uniquify_name_per_mod]; [hash] is the hexadecimal rendering
    of the configuration's hash, [format!("{:#x}")]. *)
Definition uniquify_name_per_mod (hash name : string) : string := name +++ "_" +++ hash.

(** engine/src/conversion/analysis/fun/mod.rs:1316-1324: the name of a C++ wrapper. *)
Definition wrapper_name (hash bridge : string) : string :=
  let joiner := if ends_with "_" bridge then "" else "_" in
  uniquify_name_per_mod hash (bridge +++ joiner +++ "autocxx_wrapper").

(** parser/src/config.rs:413-415 [get_makestring_name]. *)
Definition makestring_name (hash : string) : string := uniquify_name_per_mod hash "autocxx_make_string".

(** engine/src/conversion/analysis/fun/mod.rs:2142-2146: the name of a synthesised special
    member ([label] is default_ctor, move_ctor, const_copy_ctor or destructor). *)
Definition synthetic_member_name (hash item label : string) : string :=
  uniquify_name_per_mod hash (item +++ "_synthetic_" +++ label).
