(** C07, C08: dependency filtering. *)
From Verif Require Import Base ApiModel ApiSpec ApiVecModel ApiVecProofs RemoveIgnoredModel RemoveIgnoredProofs.

(** Specification: a dependency nothing can satisfy. *)
Definition unmet (known : qname -> bool) (l : list api) (d : qname) : Prop :=
  known d = false /\ forall a, In a l -> ~ ignored a -> ~ provides a d.

(** Specification: a chain of dependencies leads from [a] to an item ignored in the input or to
    an unmet dependency. *)
Inductive leads_to_bad (known : qname -> bool) (l : list api) : api -> Prop :=
| bad_unmet a d : depends_on a d -> unmet known l d -> leads_to_bad known l a
| bad_ignored a b : In b l -> ignored b -> depends_on a (aname b) -> leads_to_bad known l a
| bad_chain a b : In b l -> leads_to_bad known l b -> depends_on a (aname b) -> leads_to_bad known l a.

Lemma unmet_unsatisfied known l d : unmet known l d <-> unsatisfied known l d.
Proof.
  unfold unmet, unsatisfied. split; intros [K H]; (split; [exact K|]); intros a Ha Hi Hp.
  - apply (H a Ha); [apply not_ignored_is, Hi | apply provides_valid_types, Hp].
  - apply (H a Ha); [apply not_ignored_is, Hi | apply provides_valid_types, Hp].
Qed.
Lemma bad_tainted known l a : leads_to_bad known l a <-> tainted known l a.
Proof.
  split; intros H; induction H.
  - eapply taint_unknown; [apply depends_on_deps; eassumption | apply unmet_unsatisfied; assumption].
  - eapply taint_ignored; [eassumption | apply ignored_is; assumption | apply depends_on_deps; assumption].
  - eapply taint_chain; [eassumption | assumption | apply depends_on_deps; assumption].
  - eapply bad_unmet; [apply depends_on_deps; eassumption | apply unmet_unsatisfied; assumption].
  - eapply bad_ignored; [eassumption | apply ignored_is; assumption | apply depends_on_deps; assumption].
  - eapply bad_chain; [eassumption | assumption | apply depends_on_deps; assumption].
Qed.

(** C07, the full claim: every dependency of a surviving API is built in or is
    provided by a surviving API. It is false of the code, twice over. *)
Definition no_dangling (known : qname -> bool) (out : list api) : Prop :=
  forall a d, In a out -> ~ ignored a -> depends_on a d ->
    known d = true \/ exists b, In b out /\ ~ ignored b /\ provides b d.

Definition ri_td (n d : string) : api := API (AN (QN [] n) None) (KTypedef (Some (QN [] d)) []).

(** An API ignored for an unknown dependency is not itself recorded as ignored,
    so its dependents survive. *)
Theorem c07_unknown_dependency_chain_refuted :
  exists builtin known l out,
    NoDup (map aname l) /\ filter_ignored builtin known l = RiDone out /\ ~ no_dangling known out.
Proof.
  exists (fun _ => false), (fun _ => false), [ri_td "B" "A"; ri_td "A" "mystery"].
  eexists. split; [|split; [vm_compute; reflexivity|]].
  - repeat constructor; simpl; intuition discriminate.
  - intros H.
    destruct (H (ri_td "B" "A") (QN [] "A")) as [K|(b & Hb & Hi & Hv)];
      [left; reflexivity | apply not_ignored_is; reflexivity | apply depends_on_deps; left; reflexivity | discriminate |].
    apply not_ignored_is in Hi. apply provides_valid_types in Hv.
    destruct Hb as [<-|[<-|[]]]; [destruct Hv as [Hv|[]]; discriminate | discriminate].
Qed.
Print Assumptions c07_unknown_dependency_chain_refuted.

(** A subclass that gets ignored still counts as providing its Holder type, so a
    constructor taking the holder survives. *)
Theorem c07_subclass_holder_refuted :
  exists builtin known l out,
    NoDup (map aname l) /\
    (forall a d, In a l -> depends_on a d -> ~ unmet known l d) /\
    filter_ignored builtin known l = RiDone out /\ ~ no_dangling known out.
Proof.
  set (sup := API (AN (QN [] "Super") None) (KIgnored EAbstractNested None)).
  set (sub := API (AN (QN [] "Sub") None) (KSubclass (QN [] "Super"))).
  set (ctor := API (AN (QN [] "SubCpp_make") None) (KFunction {|
      fn_ident := "SubCpp_make"; fn_kind_of := FFunction; fn_bridge_name := "x"; fn_rust_name := "x";
      fn_params := ["SubHolder"]; fn_deps := [QN [] "SubHolder"]; fn_ignore := None;
      fn_external := true; fn_has_wrapper := true |})).
  exists (fun _ => false), (fun d => qn_eqb d (QN [] "Super")), [sup; sub; ctor].
  eexists. split; [|split; [|split; [vm_compute; reflexivity|]]].
  - repeat constructor; simpl; intuition discriminate.
  - intros a d Ha Hd K. apply unmet_unsatisfied in K. destruct K as [K U]. apply depends_on_deps in Hd. destruct Ha as [<-|[<-|[<-|[]]]]; simpl in Hd.
    + destruct Hd.
    + destruct Hd as [<-|[]]. discriminate K.
    + destruct Hd as [<-|[]]. apply (U sub); [right; left; reflexivity | reflexivity |].
      right; left; reflexivity.
  - intros H. destruct (H ctor (QN [] "SubHolder")) as [K|(b & Hb & Hi & Hv)];
      [right; right; left; reflexivity | apply not_ignored_is; reflexivity | apply depends_on_deps; left; reflexivity | discriminate |].
    apply not_ignored_is in Hi. apply provides_valid_types in Hv. destruct Hb as [<-|[<-|[<-|[]]]]; try discriminate Hi.
    destruct Hv as [Hv|[]]; discriminate.
Qed.
Print Assumptions c07_subclass_holder_refuted.

(** C07, what does hold. A surviving API's dependency is built in or was provided
    by a real input API; and if it names an item that is ignored in the output,
    that item was ignored because it has a dependency nothing provides and no input item,
    ignored or not, is called. *)
Theorem c07_no_ignored_dependency_partial :
  forall builtin known l, NoDup (map aname l) ->
    exists out, filter_ignored builtin known l = RiDone out /\
    forall a d, In a out -> ~ ignored a -> depends_on a d ->
      (known d = true \/ exists b, In b l /\ ~ ignored b /\ provides b d) /\
      (forall b, In b out -> ignored b -> aname b = d ->
         exists b0 d', In b0 l /\ ~ ignored b0 /\ aname b0 = d /\
           depends_on b0 d' /\ unmet known l d' /\ forall c, In c l -> aname c <> d').
Proof.
  intros builtin known l N.
  destruct (filter_ignored_spec builtin known l N) as (out & ign & E & OK & F & S).
  exists out. split; [exact E|]. intros a d Ha Hi Hd.
  apply not_ignored_is in Hi. apply depends_on_deps in Hd. destruct (S a Ha Hi) as [S1 S2].
  split.
  - destruct (S2 d Hd) as [H|H]; [auto|]. right. apply valid_of_In in H. destruct H as (b & H1 & H2 & H3).
    exists b. split; [exact H1|]. split; [apply not_ignored_is, H2 | apply provides_valid_types, H3].
  - intros b Hb Hib En. specialize (S1 d Hd).
    assert (exists b0, In b0 l /\ rel builtin known l ign b0 b) as (b0 & Hb0 & R) by (eapply Forall2_in_r; eauto).
    assert (Nm := rel_name _ _ _ _ _ _ R).
    destruct R as [[-> R]|(H0 & _ & [(ds & _ & _ & _ & _ & R)|(d' & D1 & D2 & D3 & _)])].
    + elim S1. rewrite <- En. apply R, ignored_is, Hib.
    + elim S1. rewrite <- En. exact R.
    + exists b0, d'. split; [exact Hb0|]. split; [apply not_ignored_is, H0|]. split; [congruence|].
      split; [apply depends_on_deps, D1|]. split; [apply unmet_unsatisfied, D2 | exact D3].
Qed.
Print Assumptions c07_no_ignored_dependency_partial.

(** C08: terminates, keeps every name (in order), leaves untouched items exactly
    as they were, and replaces only items from which a chain of dependencies
    leads to an ignored item or an unsatisfied dependency. *)
Theorem c08_loses_no_name_and_terminates :
  forall builtin known l, NoDup (map aname l) ->
    exists out, filter_ignored builtin known l = RiDone out /\
      map api_info out = map api_info l /\
      Forall2 (fun before after =>
        after = before \/
        (~ ignored before /\ ignored after /\ leads_to_bad known l before)) l out /\
      (forall a, In a l -> ~ ignored a -> ~ leads_to_bad known l a -> In a out).
Proof.
  intros builtin known l N.
  destruct (filter_ignored_spec builtin known l N) as (out & ign & E & OK & F & S).
  exists out. split; [exact E|].
  assert (F2 : Forall2 (fun before after => after = before \/
      (~ ignored before /\ ignored after /\ leads_to_bad known l before)) l out).
  { eapply Forall2_mono; [|exact F]. intros x y _ _ R.
    destruct R as [[-> _]|(H0 & T & [(ds & _ & _ & _ & -> & _)|(d & _ & _ & _ & ->)])]; [left; reflexivity| |];
      (right; split; [apply not_ignored_is, H0 | split; [constructor | apply bad_tainted, T]]). }
  split; [|split; [exact F2|]].
  - eapply Forall2_map_eq; [|exact F]. intros x y R.
    destruct R as [[-> _]|(_ & _ & [(ds & _ & _ & _ & -> & _)|(d & _ & _ & _ & ->)])]; reflexivity.
  - intros a Ha Hi Hn. destruct (Forall2_in_l _ _ _ a F2 Ha) as (b & Hb & [->|(_ & _ & T)]); [exact Hb | contradiction].
Qed.
Print Assumptions c08_loses_no_name_and_terminates.

(** Specification: every dependency in the input is on something that exists. It is built in,
    or it is called like some item (which may well be ignored), or it is one of the types of a
    subclass that itself reaches nothing bad. *)
Definition dependencies_exist (known : qname -> bool) (l : list api) : Prop :=
  forall a d, In a l -> depends_on a d ->
    known d = true \/ (exists b, In b l /\ aname b = d) \/
    (exists b, In b l /\ ~ ignored b /\ provides b d /\ ~ leads_to_bad known l b).

(** C07 in full for such inputs: every dependency of a surviving API is built in or provided by a
    surviving API, no surviving API depends on an ignored one, and the survivors are exactly the
    items from which nothing bad can be reached. *)
Theorem c07_closed_input :
  forall builtin known l, NoDup (map aname l) -> dependencies_exist known l ->
    exists out, filter_ignored builtin known l = RiDone out /\ no_dangling known out /\
    (forall a b, In a out -> ~ ignored a -> In b out -> depends_on a (aname b) -> ~ ignored b) /\
    (forall a, In a out /\ ~ ignored a <-> In a l /\ ~ ignored a /\ ~ leads_to_bad known l a).
Proof.
  intros builtin known l N C.
  destruct (c07_no_ignored_dependency_partial builtin known l N) as (out & E & H).
  destruct (c08_loses_no_name_and_terminates builtin known l N) as (out' & E' & I & F & K).
  rewrite E in E'. injection E' as <-. exists out. split; [exact E|].
  assert (DEC : forall a, ignored a \/ ~ ignored a).
  { intros a. destruct (is_ignored a) eqn:X; [left; apply ignored_is, X | right; apply not_ignored_is, X]. }
  assert (NI : forall a b, In a out -> ~ ignored a -> In b out -> depends_on a (aname b) -> ~ ignored b).
  { intros a b Ha Hi Hb Hd Ib. destruct (H a (aname b) Ha Hi Hd) as [_ H2].
    destruct (H2 b Hb Ib eq_refl) as (b0 & d' & Hb0 & _ & _ & D1 & [D2 D3] & D4).
    destruct (C b0 d' Hb0 D1) as [X|[(c & X1 & X2)|(c & X1 & X2 & X3 & _)]];
      [congruence | exact (D4 c X1 X2) | exact (D3 c X1 X2 X3)]. }
  assert (OLD : forall a, In a out -> ~ ignored a -> In a l).
  { intros a Ha Hi. destruct (Forall2_in_r _ _ _ a F Ha) as (a0 & H0 & [->|(_ & X & _)]); [exact H0 | contradiction]. }
  assert (NM : forall b, In b l -> exists b', In b' out /\ aname b' = aname b).
  { intros b Hb. assert (X : In (api_info b) (map api_info out)) by (rewrite I; now apply in_map).
    apply in_map_iff in X. destruct X as (b' & X1 & X2). exists b'. split; [exact X2|]. unfold aname. now rewrite X1. }
  split; [|split; [exact NI|]].
  - intros a d Ha Hi Hd. destruct (C a d (OLD a Ha Hi) Hd) as [X|[(b & X1 & <-)|(b & X1 & X2 & X3 & X4)]]; [auto| |].
    + right. destruct (NM b X1) as (b' & B1 & B2). exists b'. split; [exact B1|].
      rewrite <- B2 in Hd |- *. split; [apply (NI a b' Ha Hi B1 Hd) | destruct b'; constructor].
    + right. exists b. auto.
  - intros a. split; [|intros (H1 & H2 & H3); auto]. intros [Ha Hi]. split; [auto|]. split; [exact Hi|]. intros L.
    revert Ha Hi. induction L as [a d D U|a b Hb Ib D|a b Hb L IH D]; intros Ha Hi.
    + destruct U as [U1 U2]. destruct (H a d Ha Hi D) as [[X|(b & X1 & X2 & X3)] _]; [congruence|]. exact (U2 b X1 X2 X3).
    + destruct (Forall2_in_l _ _ _ b F Hb) as (b' & Hb' & [->|(X & _)]); [exact (NI a b Ha Hi Hb' D Ib) | contradiction].
    + destruct (Forall2_in_l _ _ _ b F Hb) as (b' & Hb' & [->|(X & Y & _)]).
      * apply IH; [exact Hb' | exact (NI a b Ha Hi Hb' D)].
      * destruct (NM b Hb) as (c & C1 & C2). destruct (DEC c) as [Ic|Ic].
        -- apply (NI a c Ha Hi C1); [congruence | exact Ic].
        -- assert (c = b) as ->; [|now apply IH]. 
           assert (Q : forall (l : list api) x y, NoDup (map aname l) -> In x l -> In y l -> aname x = aname y -> x = y).
           { clear. induction l as [|z l IH]; intros x y N Hx Hy Q; [destruct Hx|]. inversion N; subst. destruct Hx as [<-|Hx], Hy as [<-|Hy]; auto.
             - elim H1. rewrite Q. now apply in_map.
             - elim H1. rewrite <- Q. now apply in_map. }
           apply (Q l); auto.
Qed.
Print Assumptions c07_closed_input.

(** C08, the reason given: a replaced item names dependencies it really has, each of them an item
    that is ignored or leads to something bad, or one that nothing provides; and it is reported
    against its class when it is a method. *)
Theorem c08_reason_reported :
  forall builtin known l, NoDup (map aname l) ->
    exists out, filter_ignored builtin known l = RiDone out /\
      Forall2 (fun before after =>
        after = before \/
        exists e c, api_kind_of after = KIgnored e c /\
          ((exists ds, e = EIgnoredDependent ds /\ ds <> [] /\ forall d, In d ds -> depends_on before d /\
              exists b, In b l /\ aname b = d /\ (ignored b \/ leads_to_bad known l b)) \/
           (exists d, e = EUnknownDependent d /\ depends_on before d /\ unmet known l d)) /\
          (forall f mk cls, api_kind_of before = KFunction f -> fn_kind_of f = FMethod mk cls ->
              builtin (qn_item cls) = false -> exists m, c = Some (CtxMethod (qn_item cls) m))) l out.
Proof.
  intros builtin known l N.
  destruct (filter_ignored_spec builtin known l N) as (out & ign & E & [OK _] & F & S).
  exists out. split; [exact E|]. eapply Forall2_mono; [|exact F]. intros x y _ _ R.
  assert (C : forall e, exists c, api_kind_of (create_ignore_item builtin x e) = KIgnored e c /\
     forall f mk cls, api_kind_of x = KFunction f -> fn_kind_of f = FMethod mk cls ->
              builtin (qn_item cls) = false -> exists m, c = Some (CtxMethod (qn_item cls) m)).
  { intros e. unfold create_ignore_item. cbn [api_kind_of]. eexists. split; [reflexivity|].
    intros f mk cls Hf Hk Hb. rewrite Hf, Hk. unfold ctx_for_method. rewrite Hb. eauto. }
  destruct R as [[-> _]|(H0 & T & [(ds & D1 & D2 & D3 & -> & _)|(d & D1 & D2 & D3 & ->)])]; [left; reflexivity| |]; right.
  - destruct (C (EIgnoredDependent ds)) as (c & C1 & C2). exists (EIgnoredDependent ds), c.
    split; [exact C1|]. split; [|exact C2]. left. exists ds. split; [reflexivity|]. split; [exact D1|].
    intros d Hd. split; [apply depends_on_deps, D2, Hd|].
    destruct (OK d (D3 d Hd)) as (b & H1 & H2 & H3). exists b. split; [exact H1|]. split; [exact H2|].
    destruct H3; [left; apply ignored_is | right; apply bad_tainted]; assumption.
  - destruct (C (EUnknownDependent d)) as (c & C1 & C2). exists (EUnknownDependent d), c.
    split; [exact C1|]. split; [|exact C2]. right. exists d. split; [reflexivity|].
    split; [apply depends_on_deps, D1 | apply unmet_unsatisfied, D2].
Qed.
Print Assumptions c08_reason_reported.

Example c07_c08_case :
  match filter_ignored (fun _ => false) (fun d => qn_eqb d (QN [] "int"))
    [ri_td "a" "b"; ri_td "ok" "int"; ri_td "b" "c";
     API (AN (QN [] "c") None) (KIgnored EDuplicateItems None)] with
  | RiDone out => map is_ignored out = [true; false; true; true] /\
      map aname out = map (QN []) ["a"; "ok"; "b"; "c"]
  | RiFuel => False
  end.
Proof. vm_compute. split; reflexivity. Qed.
(** The hypothesis of [c07_closed_input] is met by a list with ignored items that others need. *)
Example c07_closed_input_case :
  dependencies_exist (fun d => qn_eqb d (QN [] "int"))
    [ri_td "a" "b"; ri_td "ok" "int"; ri_td "b" "c"; API (AN (QN [] "c") None) (KIgnored EDuplicateItems None)].
Proof.
  intros a d Ha Hd. apply depends_on_deps in Hd. destruct Ha as [<-|[<-|[<-|[<-|[]]]]]; [| | |destruct Hd]; destruct Hd as [<-|[]].
  - right; left. exists (ri_td "b" "c"). split; [simpl; auto | reflexivity].
  - left. reflexivity.
  - right; left. exists (API (AN (QN [] "c") None) (KIgnored EDuplicateItems None)). split; [simpl; auto | reflexivity].
Qed.
