(** C05, C06: garbage collection from the allowlist. *)
From Coq Require Import Relations.
From Verif Require Import Base ApiModel ApiSpec ApiVecModel ApiVecProofs GcModel GcProofs.

(** Specification. [edge l a b]: both are in the input and [a] depends on [b].
    An API is wanted when a chain of edges leads to it from an API whose
    allowlist name the user listed. *)
Definition edge (l : list api) (a b : api) : Prop := In a l /\ In b l /\ depends_on a (aname b).
Definition wanted (allow : string -> bool) (cpp : qname -> string) (l : list api) (a : api) : Prop :=
  exists r q, In r l /\ asked_as r q /\ allow (cpp q) = true /\ clos_refl_trans api (edge l) r a.

Lemma wanted_reach allow cpp l a : wanted allow cpp l a <-> reach (gc_root allow cpp) l a.
Proof.
  split.
  - intros (r & q & Hr & Hq & Ha & C). apply asked_as_name in Hq. subst q. apply clos_rt_rtn1 in C.
    induction C as [|b c (H1 & H2 & H3) C IH]; [apply reach_root; auto |].
    eapply reach_dep; [exact IH | exact H2 | apply depends_on_deps, H3].
  - intros R. induction R as [a Ha Hr|a b Ra (r & q & H1 & H2 & H3 & H4) Hb Hd].
    + exists a, (name_for_allowlist a). split; [exact Ha|].
      split; [apply asked_as_name; reflexivity|]. split; [exact Hr | apply rt_refl].
    + exists r, q. split; [exact H1|]. split; [exact H2|]. split; [exact H3|].
      eapply rt_trans; [exact H4|]. apply rt_step. split; [|split; [exact Hb | apply depends_on_deps, Hd]].
      inversion Ra; auto.
Qed.

(** C05. *)
Theorem c05_keeps_exactly_reachable :
  forall builtin allow cpp l out,
    NoDup (map aname l) -> gc builtin allow cpp l = GcDone out ->
    (forall a, In a (av_apis out) <-> In a l /\ wanted allow cpp l a) /\
    NoDup (map aname (av_apis out)).
Proof.
  intros builtin allow cpp l out N E. destruct (gc_spec builtin allow cpp l out N E) as [W S].
  split; [|apply W]. intros a. rewrite S, wanted_reach.
  split; [intros H; split; [eapply reach_in; exact H | exact H] | tauto].
Qed.
Print Assumptions c05_keeps_exactly_reachable.

(** The collection handed to the collector always has distinct names (C01), and
    the worklist always empties, so C05 applies to every pipeline input. *)
Theorem c05_every_collection :
  forall builtin allow cpp ops,
    let l := av_apis (av_run builtin ops) in
    exists out, gc builtin allow cpp l = GcDone out /\
      (forall a, In a (av_apis out) <-> In a l /\ wanted allow cpp l a).
Proof.
  intros builtin allow cpp ops l. destruct (gc builtin allow cpp l) as [out|] eqn:E.
  - exists out. split; [reflexivity|].
    apply (c05_keeps_exactly_reachable builtin allow cpp l out); [apply av_wf_run | exact E].
  - elim (gc_total builtin allow cpp l E).
Qed.
Print Assumptions c05_every_collection.

(** C06. Closed under dependencies present in the input. *)
Theorem c06_output_closed_under_dependencies :
  forall builtin allow cpp l out a d,
    NoDup (map aname l) -> gc builtin allow cpp l = GcDone out ->
    In a (av_apis out) -> depends_on a d -> In d (map aname l) ->
    In d (map aname (av_apis out)).
Proof.
  intros builtin allow cpp l out a d N E Ha Hd Hin. apply depends_on_deps in Hd.
  destruct (gc_spec builtin allow cpp l out N E) as [_ S].
  apply in_map_iff in Hin. destruct Hin as [b [<- Hb]]. apply in_map, S.
  eapply reach_dep; eauto. apply S, Ha.
Qed.
Print Assumptions c06_output_closed_under_dependencies.

(** C06. Terminates for every list at all: cyclic, duplicated names, dangling
    dependencies. *)
Theorem c06_always_terminates :
  forall builtin allow cpp l, exists out, gc builtin allow cpp l = GcDone out.
Proof.
  intros builtin allow cpp l. destruct (gc builtin allow cpp l) as [out|] eqn:E; [eauto|].
  elim (gc_total builtin allow cpp l E).
Qed.
Print Assumptions c06_always_terminates.

Definition gc_ex_td (n d : string) : api := API (AN (QN [] n) None) (KTypedef (Some (QN [] d)) []).
Example c05_case :
  match gc (fun _ => false) (String.eqb "a") qn_item
    [gc_ex_td "x" "a"; gc_ex_td "a" "b"; gc_ex_td "c" "a"; gc_ex_td "b" "c"; gc_ex_td "z" "z"] with
  | GcDone out => map aname (av_apis out) = map (QN []) ["a"; "b"; "c"]
  | GcFuel => False
  end.
Proof. vm_compute. reflexivity. Qed.
