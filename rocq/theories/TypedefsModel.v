(** engine/src/conversion/analysis/type_converter.rs: following typedefs. *)
From Verif Require Import Base QNamesModel ApiModel TypesModel.

(** engine/src/conversion/analysis/type_converter.rs:654-667 [find_typedefs]: pairs of typedef name and target, collected into a map
    (a later pair replaces an earlier one of the same name). *)
Definition find_typedefs (l : list (qname * ty)) : list (qname * ty) :=
  fold_left (fun m p => qset (fst p) (snd p) m) l [].

Inductive td_res :=
| TdOk (t : option ty)
| TdRecursive (n : qname)   (* ConvertErrorFromCpp::InfinitelyRecursiveTypedef *)
| TdAnonymous               (* ConvertErrorFromCpp::TypedefToTypeInAnonymousNamespace *)
| TdPanic                   (* from_type_path on the bare path [root] or [output] *)
| TdFuel.

(** engine/src/conversion/analysis/type_converter.rs:480-511 [resolve_typedef], the loop. [encountered]
    is the set of names already followed, [prev] is [previous_typ]. *)
Fixpoint resolve_loop (fuel : nat) (tds : list (qname * ty)) (encountered : list qname) (tn : qname)
    (prev : option ty) : td_res :=
  match fuel with
  | 0 => TdFuel
  | S fuel' =>
      match qget tn tds with
      | None => TdOk prev
      | Some (TPath lead id args) =>
          match path_name lead id with
          | None => TdPanic
          | Some new_tn =>
              if qmem new_tn encountered then TdRecursive tn
              else if existsb (starts_with "_bindgen_mod") (segs lead id) then TdAnonymous
              else resolve_loop fuel' tds (qinsert new_tn encountered) new_tn (Some (TPath lead id args))
          end
      | Some other => TdOk (Some other)
      end
  end.
(** Enough fuel for any map (TypedefsProofs shows it never runs out). *)
Definition resolve_typedef (tds : list (qname * ty)) (tn : qname) : td_res :=
  resolve_loop (length tds + 2) tds [] tn None.
