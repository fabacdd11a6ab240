(** engine/src/conversion/analysis/remove_ignored.rs: dropping APIs that depend
    on ignored or unknown items. *)
From Verif Require Import Base ApiModel ApiVecModel.

Section RemoveIgnored.
Variable builtin : string -> bool.
(** [known_types().is_known_type], engine/src/known_types.rs (modelled
    separately in KnownTypesModel). *)
Variable known : qname -> bool.

(** engine/src/conversion/analysis/remove_ignored.rs:72-101 [create_ignore_item]. *)
Definition create_ignore_item (a : api) (err : cpp_error) : api :=
  let id := qn_item (aname a) in
  API (api_info a)
    (KIgnored err
       (match api_kind_of a with
        | KFunction f =>
            match fn_kind_of f with
            | FTraitMethod _ _ => None
            | FMethod _ self_ty => Some (ctx_for_method builtin (qn_item self_ty) id)
            | FFunction => Some (ctx_for_item builtin id)
            end
        | _ => Some (ctx_for_item builtin id)
        end)).

(** [Iterator::collect] into a [HashSet]. *)
Definition qset_of (l : list qname) : list qname := fold_left (fun s n => qinsert n s) l [].

(** engine/src/conversion/analysis/remove_ignored.rs:52-55: first missing dependency. *)
Definition ri_missing (valid : list qname) (a : api) : option qname :=
  find (fun d => negb (qmem d valid) && negb (known d)) (deps a).

(** engine/src/conversion/analysis/remove_ignored.rs:38-66: the closure applied to
    one API. Returns the new API, the updated [ignored_items] and whether
    [iterate_again] was set. *)
Definition ri_item (valid : list qname) (ign : list qname) (a : api) : api * list qname * bool :=
  let bad := qset_of (filter (fun d => qmem d ign) (deps a)) in
  match bad with
  | _ :: _ => (create_ignore_item a (EIgnoredDependent bad), qinsert (aname a) ign, true)
  | [] =>
      match ri_missing valid a with
      | Some d => (create_ignore_item a (EUnknownDependent d), ign, false)
      | None => (a, ign, false)
      end
  end.

(** engine/src/conversion/analysis/remove_ignored.rs:36-67: one pass over all
    APIs, threading [ignored_items], before the final [collect]. *)
Fixpoint ri_pass (valid ign : list qname) (l : list api) : list api * list qname * bool :=
  match l with
  | [] => ([], ign, false)
  | a :: l' =>
      let '(a', ign1, ag1) := ri_item valid ign a in
      let '(l'', ign2, ag2) := ri_pass valid ign1 l' in
      (a' :: l'', ign2, ag1 || ag2)
  end.

Inductive ri_res := RiDone (out : list api) | RiFuel.

(** engine/src/conversion/analysis/remove_ignored.rs:33-68: iterate until stable. *)
Fixpoint ri_loop (fuel : nat) (valid ign : list qname) (l : list api) : ri_res :=
  match fuel with
  | O => RiFuel
  | S fuel' =>
      let '(l', ign', again) := ri_pass valid ign l in
      let l'' := av_apis (av_from_list builtin l') in
      if again then ri_loop fuel' valid ign' l'' else RiDone l''
  end.

(** engine/src/conversion/analysis/remove_ignored.rs:21-70
    [filter_apis_by_ignored_dependents]. *)
Definition filter_ignored (l : list api) : ri_res :=
  let ign := qset_of (map aname (filter is_ignored l)) in
  let valid := qset_of (flat_map valid_types (filter (fun a => negb (is_ignored a)) l)) in
  ri_loop (S (length l)) valid ign l.
End RemoveIgnored.
