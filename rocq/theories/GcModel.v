(** engine/src/conversion/analysis/gc.rs: following edges from the allowlist. *)
From Verif Require Import Base ApiModel ApiVecModel.

Section Gc.
Variable builtin : string -> bool.
(** [config.is_on_allowlist], parser/src/config.rs:361 (modelled separately in
    AllowlistModel), and [QualifiedName::to_cpp_name], engine/src/types.rs:180. *)
Variable on_allowlist : string -> bool.
Variable to_cpp_name : qname -> string.

(** engine/src/conversion/analysis/gc.rs:44-47: the initial filter. *)
Definition gc_root (a : api) : bool := on_allowlist (to_cpp_name (name_for_allowlist a)).

(** engine/src/conversion/analysis/gc.rs:51-55: [by_typename]. *)
Definition gc_insert (m : list (qname * apivec)) (a : api) : list (qname * apivec) :=
  let v := match qget (aname a) m with Some v => v | None => av_new end in
  qset (aname a) (av_push builtin v a) m.
Definition gc_by_typename (l : list api) : list (qname * apivec) := fold_left gc_insert l [].

Inductive gc_res := GcDone (out : apivec) | GcFuel.

(** engine/src/conversion/analysis/gc.rs:58-68: the worklist loop, with fuel. *)
Fixpoint gc_loop (fuel : nat) (todos : list qname) (byt : list (qname * apivec))
    (done : list qname) (output : apivec) : gc_res :=
  match fuel with
  | O => GcFuel
  | S fuel' =>
      match todos with
      | [] => GcDone output
      | todo :: todos' =>
          if qmem todo done then gc_loop fuel' todos' byt done output
          else
            match qget todo byt with
            | Some these =>
                gc_loop fuel' (todos' ++ flat_map deps (av_apis these)) (qdel todo byt)
                  (qinsert todo done) (fst (av_append builtin output these))
            | None => gc_loop fuel' todos' byt (qinsert todo done) output
            end
      end
  end.

(** Enough steps: one per initial todo and one per dependency edge. *)
Definition gc_weight (byt : list (qname * apivec)) : nat :=
  list_sum (map (fun e => length (flat_map deps (av_apis (snd e)))) byt).

(** engine/src/conversion/analysis/gc.rs:38-70
    [filter_apis_by_following_edges_from_allowlist]. *)
Definition gc (apis : list api) : gc_res :=
  let todos := map aname (filter gc_root apis) in
  let byt := gc_by_typename apis in
  gc_loop (S (length todos + gc_weight byt)) todos byt [] av_new.
End Gc.
