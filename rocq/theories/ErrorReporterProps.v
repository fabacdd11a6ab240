(** C46: a failing item is replaced by one ignored item and affects nothing else. *)
From Verif Require Import Base ApiModel ApiVecModel ApiVecProofs ErrorReporterModel ErrorReporterProofs.

(** The list of items produced by a conversion pass, before they are collected. *)
Definition outputs {S} (f : S -> api -> S * list api) (s : S) (l : list api) : list api :=
  snd (flat_map_state f s l).
Definition state_after {S} (f : S -> api -> S * list api) (s : S) (l : list api) : S :=
  fst (flat_map_state f s l).

(** Item conversion: if the closure fails on [x] after having processed [before], the output
    is what the output would be without [x], with exactly one ignored item, carrying the
    error under [x]'s own name, at [x]'s place. The closure may have state; the
    premise says that the failing call did not change it. *)
Theorem c46_item_error_isolated :
  forall (S : Type) builtin (f : S -> api -> S * res (list api) cpp_error) s before x after e,
  f (state_after (convert_item builtin f) s before) x =
    (state_after (convert_item builtin f) s before, Err e) ->
  exists o1 o2,
    outputs (convert_item builtin f) s (before ++ after) = o1 ++ o2 /\
    outputs (convert_item builtin f) s (before ++ x :: after) =
      o1 ++ API (api_info x) (KIgnored e (Some (ctx_for_item builtin (qn_item (aname x))))) :: o2.
Proof.
  intros S builtin f s before x after e. unfold outputs, state_after.
  rewrite !flat_map_state_app. destruct (flat_map_state _ s before) as [s1 o1]. simpl. intros H.
  unfold convert_item at 2. rewrite H. destruct (flat_map_state _ s1 after) as [s2 o2]. simpl.
  exists o1, o2. split; reflexivity.
Qed.
Print Assumptions c46_item_error_isolated.

(** The same for the passes that map functions, structs, enums and typedefs; the error
    keeps the context the closure gave it. *)
Theorem c46_error_isolated :
  forall (S : Type) (func strukt enm typedef : S -> api -> S * res (list api) err_with_ctx)
         s before x after e c,
  let conv := convert_api func strukt enm typedef in
  let s1 := state_after conv s before in
  match api_kind_of x with
  | KFunction _ => func s1 x = (s1, Err (e, c))
  | KStruct _ => strukt s1 x = (s1, Err (e, c))
  | KEnum => enm s1 x = (s1, Err (e, c))
  | KTypedef _ _ => typedef s1 x = (s1, Err (e, c))
  | _ => False
  end ->
  exists o1 o2,
    outputs conv s (before ++ after) = o1 ++ o2 /\
    outputs conv s (before ++ x :: after) = o1 ++ API (api_info x) (KIgnored e c) :: o2.
Proof.
  intros S func strukt enm typedef s before x after e c conv s1. unfold outputs, state_after in *.
  rewrite !flat_map_state_app. subst s1. destruct (flat_map_state conv s before) as [s1 o1]. simpl. intros H.
  assert (E : conv s1 x = (s1, [API (api_info x) (KIgnored e c)])).
  { unfold conv, convert_api. destruct (api_kind_of x); try contradiction; rewrite H; reflexivity. }
  rewrite E. destruct (flat_map_state conv s1 after) as [s2 o2]. simpl.
  exists o1, o2. split; reflexivity.
Qed.
Print Assumptions c46_error_isolated.

(** Items of the other kinds pass through unchanged and touch no state. *)
Theorem c46_other_kinds_unchanged :
  forall (S : Type) (func strukt enm typedef : S -> api -> S * res (list api) err_with_ctx) s x,
  match api_kind_of x with KFunction _ | KStruct _ | KEnum | KTypedef _ _ => False | _ => True end ->
  convert_api func strukt enm typedef s x = (s, [x]).
Proof.
  intros S func strukt enm typedef s x H. unfold convert_api. destruct (api_kind_of x); try contradiction; reflexivity.
Qed.
Print Assumptions c46_other_kinds_unchanged.

(** The produced items all arrive in the collection, in order, when their names
    are new and distinct. *)
Theorem c46_outputs_collected :
  forall (S : Type) builtin (f : S -> api -> S * res (list api) cpp_error) s inp out,
  av_wf out ->
  NoDup (map aname (av_apis out ++ outputs (convert_item builtin f) s inp)) ->
  av_apis (snd (convert_item_apis builtin f s inp out)) =
  av_apis out ++ outputs (convert_item builtin f) s inp.
Proof. intros S builtin f s inp out. exact (convert_item_apis_nodup builtin f s inp out). Qed.
Print Assumptions c46_outputs_collected.

(** [report_any_error]: success changes nothing; an error with a context leaves every
    existing item alone and guarantees an item under the reported name, a fresh one
    being an ignored item with the error. *)
Theorem c46_report_any_error :
  forall builtin T ns apis (r : res T err_with_ctx),
  av_wf apis ->
  let '(apis', t) := report_any_error builtin ns apis r in
  match r with
  | Ok v => t = Some v /\ apis' = apis
  | Err (e, None) => t = None /\ apis' = apis
  | Err (e, Some c) =>
      t = None /\
      let n := QN ns (match c with CtxItem id | CtxSanitizedItem id => id | CtxMethod s _ => s end) in
      (forall b, In b (av_apis apis) -> In b (av_apis apis')) /\
      (if in_dec qname_eq_dec n (map aname (av_apis apis)) then apis' = apis
       else av_apis apis' = av_apis apis ++ [API (AN n None) (KIgnored e (Some c))])
  end.
Proof.
  intros builtin T ns apis r W. destruct r as [v|[e [c|]]]; simpl; auto.
  split; [reflexivity|]. fold (ctx_id c).
  set (a := API (AN (QN ns (ctx_id c)) None) (KIgnored e (Some c))).
  destruct (in_dec qname_eq_dec (QN ns (ctx_id c)) (map aname (av_apis apis))) as [H|H].
  - rewrite (push_dup_ignored builtin apis a W); [split; auto | exact H | reflexivity].
  - rewrite (push_fresh builtin apis a W H). split; [intros b Hb; apply in_app_iff; auto | reflexivity].
Qed.
Print Assumptions c46_report_any_error.

(** A pass with a counter as its state which fails on structs called [Bad]: the premises of the first
    theorem are met by a failing item between two others. *)
Example c46_nonvacuous :
  let mk n := API (AN (QN [] n) None) KConst in
  let f := fun (s : nat) a => if String.eqb (qn_item (aname a)) "Bad" then (s, Err EAbstractNested) else (S s, Ok [a]) in
  f (state_after (convert_item (fun _ => false) f) 0 [mk "A"]) (mk "Bad")
    = (state_after (convert_item (fun _ => false) f) 0 [mk "A"], Err EAbstractNested) /\
  outputs (convert_item (fun _ => false) f) 0 [mk "A"; mk "Bad"; mk "B"] =
    [mk "A"; API (AN (QN [] "Bad") None) (KIgnored EAbstractNested (Some (CtxItem "Bad"))); mk "B"].
Proof. vm_compute. split; reflexivity. Qed.
