(** engine/src/types.rs: qualified names. *)
From Verif Require Import Base.

(** [str::split("::")]: the separator is matched leftmost and non-overlapping;
    [acc] is the current piece. *)
Fixpoint split_cc_aux (acc : string) (s : string) : list string :=
  match s with
  | EmptyString => [acc]
  | String ":" (String ":" rest) => acc :: split_cc_aux "" rest
  | String c rest => split_cc_aux (acc +++ String c "") rest
  end.
Definition split_cc (s : string) : list string := split_cc_aux "" s.

(** engine/src/types.rs:109-119 [from_segments]; [None] is the [unreachable!]
    on an empty iterator. *)
Fixpoint from_segments_aux (ns : list string) (segs : list string) : option qname :=
  match segs with
  | [] => None
  | [x] => Some (QN ns x)
  | x :: rest => from_segments_aux (ns ++ [x]) rest
  end.
Definition from_segments (segs : list string) : option qname := from_segments_aux [] segs.

(** engine/src/types.rs:127-140 [new_from_cpp_name]: as above, but empty
    non-final segments are skipped. *)
Fixpoint new_from_cpp_name_aux (ns : list string) (segs : list string) : option qname :=
  match segs with
  | [] => None
  | [x] => Some (QN ns x)
  | x :: rest => new_from_cpp_name_aux (if String.eqb x "" then ns else ns ++ [x]) rest
  end.
Definition new_from_cpp_name_opt (id : string) : option qname := new_from_cpp_name_aux [] (split_cc id).
(** [unreachable!()] at engine/src/types.rs:139 is really unreachable (QNamesProofs), so the
    total version below never uses its default. *)
Definition new_from_cpp_name (id : string) : qname :=
  match new_from_cpp_name_opt id with Some q => q | None => QN [] "" end.

(** engine/src/types.rs:95-107 [from_type_path], on the path's segments. *)
Definition from_type_path (segs : list string) : option qname :=
  match segs with
  | [] => None
  | first :: rest =>
      if String.eqb first "root" || String.eqb first "output" then from_segments rest
      else from_segments segs
  end.

(** engine/src/types.rs:213-216 [segment_iter]. *)
Definition segment_iter (q : qname) : list string := qn_ns q ++ [qn_item q].

(** engine/src/types.rs:219-227 [Display]. *)
Definition qn_display (q : qname) : string :=
  fold_right (fun seg acc => seg +++ "::" +++ acc) (qn_item q) (qn_ns q).

(** engine/src/types.rs:184-188: the default case of [to_cpp_name]. *)
Definition plain_cpp_name (q : qname) : string := join "::" (qn_ns q ++ [qn_item q]).
