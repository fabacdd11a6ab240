(** engine/src/conversion/analysis/depth_first.rs: fields-and-bases-first order. *)
From Verif Require Import Base.

Section DepthFirst.
(** The trait [HasFieldsAndBases], engine/src/conversion/analysis/depth_first.rs:19-26: any item type with a
    name and the dependencies for which a definition is required. *)
Variable A : Type.
Variable name : A -> qname.
Variable fbdeps : A -> list qname.

(** Result of one call of the iterator's [next]. [NextPanic] is the explicit
    panic at engine/src/conversion/analysis/depth_first.rs:58; [NextFuel] exists only because the loop is
    written with fuel. *)
Inductive next_res :=
| NextNone
| NextItem (c : A) (queue : list A) (ytd : list qname)
| NextPanic
| NextFuel.

(** [HashSet::remove]. *)
Definition qremove (x : qname) (l : list qname) : list qname :=
  filter (fun y => negb (qn_eqb x y)) l.

(** engine/src/conversion/analysis/depth_first.rs:49-52: the readiness test. *)
Definition ready (ytd : list qname) (c : A) : bool :=
  negb (existsb (fun d => qmem d ytd) (fbdeps c)).

(** engine/src/conversion/analysis/depth_first.rs:48-71: the [while let] loop of
    [next]; [first] is [first_candidate]. *)
Fixpoint df_loop (fuel : nat) (first : option qname) (queue : list A) (ytd : list qname) : next_res :=
  match fuel with
  | O => NextFuel
  | S fuel' =>
      match queue with
      | [] => NextNone
      | c :: q =>
          if ready ytd c then NextItem c q (qremove (name c) ytd)
          else
            let q' := q ++ [c] in
            match first, q' with
            | Some f, front :: _ => if qn_eqb (name front) f then NextPanic else df_loop fuel' first q' ytd
            | None, [] => NextPanic
            | _, _ => df_loop fuel' first q' ytd
            end
      end
  end.

(** engine/src/conversion/analysis/depth_first.rs:46-72 [next]. *)
Definition df_next (queue : list A) (ytd : list qname) : next_res :=
  df_loop (S (length queue)) (match queue with [] => None | c :: _ => Some (name c) end) queue ytd.

(** Driving the iterator to the end, as the callers' [for] loops do
    (engine/src/conversion/analysis/fun/implicit_constructors.rs:202, engine/src/conversion/analysis/abstract_types.rs:112). *)
Inductive trav := TDone (out : list A) | TPanic | TFuel.
Fixpoint df_drive (fuel : nat) (queue : list A) (ytd : list qname) (acc : list A) : trav :=
  match fuel with
  | O => TFuel
  | S fuel' =>
      match df_next queue ytd with
      | NextNone => TDone acc
      | NextItem c q y => df_drive fuel' q y (acc ++ [c])
      | NextPanic => TPanic
      | NextFuel => TFuel
      end
  end.

(** engine/src/conversion/analysis/depth_first.rs:30-36 [fields_and_bases_first]. *)
Definition fields_and_bases_first (inputs : list A) : trav :=
  df_drive (S (length inputs)) inputs (fold_left (fun s n => qinsert n s) (map name inputs) []) [].
End DepthFirst.
Arguments TDone {A} out.
Arguments TPanic {A}.
Arguments TFuel {A}.
Arguments NextNone {A}.
Arguments NextItem {A} c queue ytd.
Arguments NextPanic {A}.
Arguments NextFuel {A}.
