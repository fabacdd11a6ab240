(** C03, C04: fields-and-bases-first traversal. *)
From Coq Require Import Relations.
From Verif Require Import Base ApiModel ApiSpec ApiVecModel ApiVecProofs DepthFirstModel DepthFirstProofs.

(** Specification: [depends l x y] - both items are in the collection and [x]
    names [y] as a field or base type. *)
Definition depends {A} (name : A -> qname) (fbdeps : A -> list qname) (l : list A) (x y : A) : Prop :=
  In x l /\ In y l /\ In (name y) (fbdeps x).
Definition has_cycle {A} name (fbdeps : A -> list qname) l : Prop :=
  exists x, clos_trans A (depends name fbdeps l) x x.

(** C03. Every item exactly once; everything an item depends on strictly earlier. *)
Theorem c03_dependencies_first :
  forall A name fbdeps (l out : list A),
    NoDup (map name l) -> fields_and_bases_first A name fbdeps l = TDone out ->
    Permutation out l /\
    forall before x after, out = before ++ x :: after ->
      forall y, depends name fbdeps l x y -> In y before.
Proof.
  intros A name fbdeps l out N E. assert (H := traverse_spec A name fbdeps l N). rewrite E in H.
  destruct H as [P O]. split; [exact P|]. intros b x a Eo y (_ & Hy & Hd). eapply O; eauto.
Qed.
Print Assumptions c03_dependencies_first.

(** C04. Never runs out of steps; completes iff acyclic; panics iff cyclic. *)
Theorem c04_terminates_panics_exactly_on_cycles :
  forall A name fbdeps (l : list A), NoDup (map name l) ->
    fields_and_bases_first A name fbdeps l <> TFuel /\
    ((exists out, fields_and_bases_first A name fbdeps l = TDone out) <-> ~ has_cycle name fbdeps l) /\
    (fields_and_bases_first A name fbdeps l = TPanic <-> has_cycle name fbdeps l).
Proof.
  intros A name fbdeps l N. assert (H := traverse_spec A name fbdeps l N). unfold has_cycle.
  change (depends name fbdeps l) with (dep_in A name fbdeps l).
  destruct (fields_and_bases_first A name fbdeps l) as [out| |].
  - destruct H as [P O]. assert (X := ordered_acyclic A name fbdeps l out P O).
    split; [discriminate|]. split; split.
    + intros _ [x C]. exact (X x C).
    + intros _. exists out; reflexivity.
    + discriminate.
    + intros [x C]. elim (X x C).
  - split; [discriminate|]. split; split.
    + intros [out E]; discriminate.
    + intros Hn; elim (Hn H).
    + intros _; exact H.
    + reflexivity.
  - contradiction.
Qed.
Print Assumptions c04_terminates_panics_exactly_on_cycles.

(** The hypothesis on names holds for every API collection (C01), so for APIs the outcome depends
    only on whether some struct holds or inherits itself, directly or through others. *)
Definition contains_itself (l : list api) : Prop :=
  exists x, clos_trans api (fun a b => In a l /\ In b l /\ needs_definition a (aname b)) x x.
Theorem c04_for_every_api_collection :
  forall builtin ops,
    let l := av_apis (av_run builtin ops) in
    (fields_and_bases_first api aname field_and_base_deps l = TPanic <-> contains_itself l) /\
    (~ contains_itself l ->
     exists out, fields_and_bases_first api aname field_and_base_deps l = TDone out /\
       Permutation out l /\
       forall before x after, out = before ++ x :: after ->
         forall y, In y l -> needs_definition x (aname y) -> In y before).
Proof.
  intros builtin ops l.
  assert (N : NoDup (map aname l)) by apply av_wf_run.
  assert (C : contains_itself l <-> has_cycle aname field_and_base_deps l).
  { assert (X : forall R1 R2 : api -> api -> Prop, (forall a b, R1 a b -> R2 a b) ->
       forall a b, clos_trans api R1 a b -> clos_trans api R2 a b).
    { intros R1 R2 H a b T. induction T; [apply t_step, H; assumption | eapply t_trans; eassumption]. }
    unfold contains_itself, has_cycle, depends. split; intros [x H]; exists x; revert H; apply X;
      intros a b (H1 & H2 & H3); (split; [exact H1|]); (split; [exact H2|]); apply needs_definition_fb; exact H3. }
  destruct (c04_terminates_panics_exactly_on_cycles api aname field_and_base_deps l N) as (_ & D & P).
  rewrite C. split; [exact P|]. intros H. apply D in H. destruct H as [out E]. exists out. split; [exact E|].
  destruct (c03_dependencies_first api aname field_and_base_deps l out N E) as [Q O]. split; [exact Q|].
  intros before x after Eo y Hy Hn. apply (O before x after Eo). split.
  - apply (Permutation_in _ Q). rewrite Eo. apply in_or_app; right; left; reflexivity.
  - split; [exact Hy | apply needs_definition_fb, Hn].
Qed.
Print Assumptions c04_for_every_api_collection.

(** Without distinct names the traversal can panic although nothing is cyclic:
    two items called "a" waiting for "b". *)
Theorem c04_duplicate_names_refuted :
  exists (l : list (nat * qname * list qname)),
    let name := fun x => snd (fst x) in
    fields_and_bases_first _ name snd l = TPanic /\ ~ has_cycle name snd l.
Proof.
  set (a := QN [] "a"). set (b := QN [] "b").
  exists [(0, a, [b]); (1, a, [b]); (2, b, [])]. split; [vm_compute; reflexivity|].
  intros [x C].
  assert (G : forall x y, clos_trans _ (depends (fun x : nat * qname * list qname => snd (fst x)) snd
      [(0, a, [b]); (1, a, [b]); (2, b, [])]) x y -> fst (fst x) < 2 /\ fst (fst y) = 2).
  { intros p q H. induction H as [p q (H1 & H2 & H3)|p q r H1 I1 H2 I2].
    - simpl in H1, H2. destruct H1 as [<-|[<-|[<-|[]]]], H2 as [<-|[<-|[<-|[]]]]; simpl in H3 |- *;
        try contradiction; destruct H3 as [H3|[]]; try discriminate H3; lia.
    - lia. }
  apply G in C. lia.
Qed.
Print Assumptions c04_duplicate_names_refuted.

Example c03_case :
  let n s := QN [] s in
  fields_and_bases_first (string * list string) (fun x => n (fst x)) (fun x => map n (snd x))
    [("d", ["b"; "c"]); ("b", ["a"]); ("c", ["a"; "missing"]); ("a", [])]
  = TDone [("a", []); ("b", ["a"]); ("c", ["a"; "missing"]); ("d", ["b"; "c"])].
Proof. vm_compute. reflexivity. Qed.
Example c04_case_cycle :
  let n s := QN [] s in
  fields_and_bases_first (string * list string) (fun x => n (fst x)) (fun x => map n (snd x))
    [("ok", []); ("b", ["a"; "ok"]); ("a", ["b"])] = TPanic.
Proof. vm_compute. reflexivity. Qed.
