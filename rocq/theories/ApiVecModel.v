(** engine/src/conversion/apivec.rs: the API collection. *)
From Verif Require Import Base ApiModel.

(** engine/src/conversion/apivec.rs:46-49 [ApiVec]: the vector of APIs and the index of names. *)
Record apivec := AV { av_apis : list api; av_names : list qname }.

(** engine/src/conversion/apivec.rs:82-84, 120-127 [new], [Default]. *)
Definition av_new : apivec := AV [] [].

(** engine/src/conversion/apivec.rs:109-117 [retain]: filter, then rebuild the index from scratch.
    The index is a set; rebuilding inserts each name. *)
Definition av_retain (p : api -> bool) (v : apivec) : apivec :=
  let kept := filter p (av_apis v) in
  AV kept (fold_left (fun s n => qinsert n s) (map aname kept) []).

Section Push.
(** [known_types().conflicts_with_built_in_type], reached through
    [ErrorContext::new_for_item] (engine/src/conversion/convert_error.rs:220). *)
Variable builtin : string -> bool.

(** engine/src/conversion/apivec.rs:65-69: the marker left when real items clash. *)
Definition duplicate_marker (n : qname) : api :=
  API (AN n None) (KIgnored EDuplicateItems (Some (ctx_for_item builtin (qn_item n)))).

(** engine/src/conversion/apivec.rs:71-74: the [else] branch of [push]. *)
Definition av_add (v : apivec) (a : api) : apivec :=
  AV (av_apis v ++ [a]) (qinsert (aname a) (av_names v)).

(** engine/src/conversion/apivec.rs:52-76 [push]. The recursive [self.push(IgnoredItem)] is unfolded
    once: after [retain] the index cannot contain the name, so it takes the
    [else] branch; [av_push_marker] keeps the test so this is not assumed. *)
Definition av_push_marker (v : apivec) (n : qname) : apivec :=
  if qmem n (av_names v) then v (* marker is an IgnoredItem: discarded *)
  else av_add v (duplicate_marker n).

Definition av_push (v : apivec) (a : api) : apivec :=
  let n := aname a in
  if qmem n (av_names v) then
    if is_ignored a then v
    else av_push_marker (av_retain (fun b => negb (qn_eqb (aname b) n)) v) n
  else av_add v a.

(** engine/src/conversion/apivec.rs:90-95 [extend]. *)
Definition av_extend (v : apivec) (l : list api) : apivec := fold_left av_push l v.

(** engine/src/conversion/apivec.rs:86-88 [append]: drains the other collection's vector; the other
    collection keeps its (now stale) index of names. *)
Definition av_append (v more : apivec) : apivec * apivec :=
  (av_extend v (av_apis more), AV [] (av_names more)).

(** engine/src/conversion/apivec.rs:129-138 [FromIterator::from_iter]. *)
Definition av_from_list (l : list api) : apivec := av_extend av_new l.

(** Operations a client can perform, for statements about every history. *)
Inductive av_op :=
| OpPush (a : api)
| OpExtend (l : list api)
| OpAppend (l : list api)       (* append of a collection built from [l] *)
| OpRetain (p : api -> bool).

Definition av_step (v : apivec) (o : av_op) : apivec :=
  match o with
  | OpPush a => av_push v a
  | OpExtend l => av_extend v l
  | OpAppend l => fst (av_append v (av_from_list l))
  | OpRetain p => av_retain p v
  end.
Definition av_run (ops : list av_op) : apivec := fold_left av_step ops av_new.
End Push.
