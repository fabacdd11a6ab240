(** C57: exported Rust functions record every type they use and reject what cxx cannot express. *)
From Verif Require Import Base QNamesModel ApiModel TypesModel TypesSpec UnqualifyModel ExternFunModel ExternFunProofs.

(** The types written in a signature. *)
Definition sig_type (ins : list fnarg) (out : ret_type) (t : ty) : Prop :=
  (exists p, In (FTyped p t) ins) \/ out = RType t.
Definition has_receiver (ins : list fnarg) : Prop := exists s, In (FReceiver s) ins.

Lemma inputs_spec : forall ins deps d, add_inputs ins deps = XOk d ->
  ~ has_receiver ins /\ (NoDup deps -> NoDup d) /\
  (forall p t, In (FTyped p t) ins -> exists id, exportable t id) /\
  (forall q, In q d <-> In q deps \/ exists p t id, In (FTyped p t) ins /\ exportable t id /\ q = QN [] id).
Proof.
  induction ins as [|[p t|s] ins IH]; intros deps d H; cbn [add_inputs] in H.
  - injection H as <-. split; [intros [s []]|]. split; [auto|]. split; [intros p t []|].
    intros q. split; [auto | intros [H|(p & t & id & [] & _)]; exact H].
  - destruct (add_type_to_deps t deps) as [d1| |] eqn:A; try discriminate. apply add_type_spec in A.
    destruct A as (id & E & ->). destruct (IH _ _ H) as (R & N & X & D). split.
    { intros [s [C|C]]; [discriminate | apply R; exists s; exact C]. }
    split; [|split].
    + intros ND. apply N. unfold qinsert. destruct (qmem _ _) eqn:M; [exact ND|]. apply qmem_nIn in M.
      apply NoDup_app_intro; [exact ND | repeat constructor; intros [] | intros x Hx [<-|[]]; exact (M Hx)].
    + intros p' t' [C|C]; [injection C as <- <-; exists id; exact E | eapply X, C].
    + intros q. rewrite D, qinsert_In. split.
      * intros [[->|H1]|(p' & t' & id' & H1 & H2 & H3)]; [|left; exact H1|].
        -- right. exists p, t, id. split; [left; reflexivity | auto].
        -- right. exists p', t', id'. split; [right; exact H1 | auto].
      * intros [H1|(p' & t' & id' & [C|H1] & H2 & H3)]; [auto| |].
        -- injection C as <- <-. left; left. subst q. f_equal. clear -E H2.
           assert (U : forall a i j, simple a i -> simple a j -> i = j) by (intros a i j P Q; inversion P; subst; inversion Q; subst; try reflexivity; congruence).
           inversion E; subst; inversion H2; subst; try (eapply U; eauto; fail); try reflexivity; congruence.
        -- right. exists p', t', id'. auto.
  - discriminate.
Qed.

Lemma simple_fun a i j : simple a i -> simple a j -> i = j.
Proof. intros P Q; inversion P; subst; inversion Q; subst; try reflexivity; congruence. Qed.
Lemma exportable_fun t i j : exportable t i -> exportable t j -> i = j.
Proof. intros P Q. inversion P; subst; inversion Q; subst; try (eapply simple_fun; eauto; fail); try reflexivity; congruence. Qed.

Lemma inputs_accept : forall ins deps, ~ has_receiver ins ->
  (forall p t, In (FTyped p t) ins -> exists id, exportable t id) -> exists d, add_inputs ins deps = XOk d.
Proof.
  induction ins as [|[p t|s] ins IH]; intros deps R X; cbn [add_inputs].
  - eauto.
  - destruct (X p t (or_introl eq_refl)) as [id E].
    assert (A : add_type_to_deps t deps = XOk (qinsert (QN [] id) deps)) by (apply add_type_spec; eauto).
    rewrite A. apply IH; [intros [s C]; apply R; exists s; right; exact C | intros p' t' C; apply (X p' t'); right; exact C].
  - exfalso. apply R. exists s. left; reflexivity.
Qed.

(** Exactly the signatures made of exportable types are accepted. *)
Theorem c57_accepted_exactly : forall ins out,
  (exists deps, assemble_extern_fun_deps ins out = XOk deps) <->
  ~ has_receiver ins /\ forall t, sig_type ins out t -> exists id, exportable t id.
Proof.
  intros ins out. unfold assemble_extern_fun_deps, sig_type. split.
  - intros [deps H]. destruct out as [|r].
    + destruct (inputs_spec _ _ _ H) as (R & _ & X & _). split; [exact R|]. intros t [[p C]|C]; [eapply X, C | discriminate].
    + destruct (add_type_to_deps r []) as [d| |] eqn:A; try discriminate. apply add_type_spec in A.
      destruct (inputs_spec _ _ _ H) as (R & _ & X & _). split; [exact R|].
      intros t [[p C]|C]; [eapply X, C | injection C as <-; destruct A as (id & E & _); eauto].
  - intros [R X]. destruct out as [|r].
    + apply inputs_accept; [exact R|]. intros p t C. apply X. left; eauto.
    + destruct (X r (or_intror eq_refl)) as [id E].
      assert (A : add_type_to_deps r [] = XOk (qinsert (QN [] id) [])) by (apply add_type_spec; eauto).
      rewrite A. apply inputs_accept; [exact R|]. intros p t C. apply X. left; eauto.
Qed.
Print Assumptions c57_accepted_exactly.

(** The dependencies are the types used, each once. *)
Theorem c57_deps_exact : forall ins out deps, assemble_extern_fun_deps ins out = XOk deps ->
  NoDup deps /\ forall q, In q deps <-> exists t id, sig_type ins out t /\ exportable t id /\ q = QN [] id.
Proof.
  intros ins out deps H. unfold assemble_extern_fun_deps in H. unfold sig_type. destruct out as [|r].
  - destruct (inputs_spec _ _ _ H) as (_ & N & _ & D). split; [apply N; constructor|]. intros q. rewrite D. split.
    + intros [[]|(p & t & id & C & E & ->)]. exists t, id. split; [left; eauto | auto].
    + intros (t & id & [[p C]|C] & E & ->); [|discriminate]. right. exists p, t, id. auto.
  - destruct (add_type_to_deps r []) as [d| |] eqn:A; try discriminate. apply add_type_spec in A. destruct A as (i & Er & ->).
    destruct (inputs_spec _ _ _ H) as (_ & N & _ & D).
    split; [apply N; cbn; repeat constructor; intros []|]. intros q. rewrite D, qinsert_In. split.
    + intros [[->|[]]|(p & t & id & C & E & ->)]; [exists r, i; auto | exists t, id; split; [left; eauto | auto]].
    + intros (t & id & [[p C]|C] & E & ->); [right; exists p, t, id; auto|].
      injection C as <-. left; left. f_equal. eapply exportable_fun; eauto.
Qed.
Print Assumptions c57_deps_exact.

(** Completeness in other words: any path anywhere inside any type of an accepted signature is a
    dependency, or is the wrapper [Pin], [Box] or [Vec] around one. *)
Theorem c57_every_type_recorded : forall ins out deps, assemble_extern_fun_deps ins out = XOk deps ->
  forall t l id, sig_type ins out t -> path_in l id t ->
  In (QN [] id) deps \/ (l = [] /\ (id = "Pin" \/ id = "Box" \/ id = "Vec") /\ exists a, t = TPath [] id [a]).
Proof.
  intros ins out deps H t l id S P. destruct (c57_deps_exact _ _ _ H) as [_ D].
  assert (A : exists deps, assemble_extern_fun_deps ins out = XOk deps) by eauto.
  apply c57_accepted_exactly in A. destruct A as [_ A]. destruct (A t S) as [i E].
  assert (SI : forall u j l' id', simple u j -> path_in l' id' u -> id' = j).
  { intros u j l' id' Su Pu. inversion Su; subst; inversion Pu; subst; try reflexivity; match goal with I : In _ [] |- _ => destruct I end. }
  assert (K : In (QN [] i) deps) by (apply D; exists t, i; auto).
  inversion E as [? Su|lt u ? Su|lt u ? Su|u ? Su|u ? Su]; subst.
  - left. rewrite (SI _ _ _ _ Su P). exact K.
  - inversion P; subst. left. erewrite (SI _ _ _ _ Su); eauto.
  - inversion P as [|? ? ? ? ? a Ia Pa| | |]; subst; [right; eauto 6|]. destruct Ia as [<-|[]]. inversion Pa; subst.
    left. erewrite (SI _ _ _ _ Su); eauto.
  - inversion P as [|? ? ? ? ? a Ia Pa| | |]; subst; [right; eauto 6|]. destruct Ia as [<-|[]].
    left. erewrite (SI _ _ _ _ Su); eauto.
  - inversion P as [|? ? ? ? ? a Ia Pa| | |]; subst; [right; eauto 7|]. destruct Ia as [<-|[]].
    left. erewrite (SI _ _ _ _ Su); eauto.
Qed.
Print Assumptions c57_every_type_recorded.

(** What must not be exported. *)
Definition unpinned_mut_ref (t : ty) : Prop := exists lt u, t = TRef true lt u.
Definition pinned_other (t : ty) : Prop := exists a l, t = TPath [] "Pin" (a :: l) /\ forall lt u, a :: l <> [TRef true lt u].
Definition other_generic (t : ty) : Prop := exists l id a more, t = TPath l id (a :: more) /\ id <> "Pin" /\ id <> "Box" /\ id <> "Vec".
Definition not_a_path_or_reference (t : ty) : Prop :=
  (exists m u, t = TPtr m u) \/ (exists u n, t = TArray u n) \/ (exists s, t = TOther s).
Definition uses_self (t : ty) : Prop := exists l, path_in l "Self" t.
(** In a namespace other than the two module names which stand for the root. *)
Definition in_namespace (t : ty) : Prop := exists l id, path_in l id t /\ l <> [] /\ l <> ["root"] /\ l <> ["output"].

(** Full statement: a signature using a namespaced type is rejected. Missing: paths through [root] and
    [output], which are accepted inside references and boxes (next theorem). *)
Theorem c57_bad_signatures_rejected_partial : forall ins out t,
  has_receiver ins \/
  (sig_type ins out t /\ (unpinned_mut_ref t \/ pinned_other t \/ other_generic t \/ not_a_path_or_reference t \/ uses_self t \/ in_namespace t)) ->
  forall deps, assemble_extern_fun_deps ins out <> XOk deps.
Proof.
  intros ins out t B deps H.
  assert (A : exists deps, assemble_extern_fun_deps ins out = XOk deps) by eauto.
  apply c57_accepted_exactly in A. destruct A as [R A]. destruct B as [B|[S B]]; [exact (R B)|].
  destruct (A t S) as [i E].
  assert (SI : forall u j l' id', simple u j -> path_in l' id' u -> id' <> "Self" /\ (l' = [] \/ l' = ["root"] \/ l' = ["output"])).
  { intros u j l' id' Su Pu. inversion Su; subst; inversion Pu; subst; try (match goal with I : In _ [] |- _ => destruct I end).
    - auto.
    - split; [assumption|]. destruct H0; subst; auto. }
  destruct B as [(lt & u & ->)|[(a & l & -> & N)|[(l & id & a & more & -> & N1 & N2 & N3)|[[(m & u & ->)|[(u & n & ->)|(s & ->)]]|[(l & P)|(l & id & P & N1 & N2 & N3)]]]]].
  - inversion E.
  - inversion E; subst. eapply N. reflexivity.
  - inversion E; subst; congruence.
  - inversion E.
  - inversion E.
  - inversion E.
  - assert (X : exists u, simple u i /\ (path_in l "Self" u)).
    { inversion E as [? Su|lt u ? Su|lt u ? Su|u ? Su|u ? Su]; subst; [eauto | inversion P; subst; eauto | | |];
        (inversion P as [|? ? ? ? ? a Ia Pa| | |]; subst; destruct Ia as [<-|[]]); [inversion Pa; subst|..]; eauto. }
    destruct X as (u & Su & Pu). destruct (SI _ _ _ _ Su Pu) as [C _]. congruence.
  - assert (X : exists u, simple u i /\ (path_in l id u \/ l = [])).
    { inversion E as [? Su|lt u ? Su|lt u ? Su|u ? Su|u ? Su]; subst; [eauto | inversion P; subst; eauto | | |];
        (inversion P as [|? ? ? ? ? a Ia Pa| | |]; subst; [eauto | destruct Ia as [<-|[]]]); [inversion Pa; subst|..]; eauto. }
    destruct X as (u & Su & [Pu|Pu]); [|congruence]. destruct (SI _ _ _ _ Su Pu) as [_ [C|[C|C]]]; congruence.
Qed.
Print Assumptions c57_bad_signatures_rejected_partial.

(** [fn f(a: &output::A)] is accepted, and its dependency is recorded as plain [A]. *)
Theorem c57_output_namespace_refuted : exists ins out deps,
  assemble_extern_fun_deps ins out = XOk deps /\
  exists t l id, sig_type ins out t /\ path_in l id t /\ l <> [].
Proof.
  exists [FTyped "a" (TRef false None (TPath ["output"] "A" []))], RDefault, [QN [] "A"].
  split; [reflexivity|]. exists (TRef false None (TPath ["output"] "A" [])), ["output"], "A".
  split; [left; exists "a"; left; reflexivity|]. split; [repeat constructor | discriminate].
Qed.
Print Assumptions c57_output_namespace_refuted.

(** The only panic: a type written just [root] or [output]. *)
Theorem c57_panics_only_on_module_names : forall ins out, assemble_extern_fun_deps ins out = XPanic ->
  exists t m, sig_type ins out t /\ path_in [] m t /\ (m = "root" \/ m = "output").
Proof.
  assert (AP : forall l i a deps, add_path_to_deps l i a deps = XPanic -> a = [] /\ l = [] /\ (i = "root" \/ i = "output")).
  { intros l i a deps. unfold add_path_to_deps. destruct a; [|discriminate].
    destruct (path_name l i) as [[[|n ns] it]|] eqn:P; cbn; [destruct (String.eqb it "Self")| |]; try discriminate.
    intros _. apply (path_name_none l i []) in P. destruct P as (m & b & C & M). injection C as -> -> _. auto. }
  assert (AT : forall t deps, add_type_to_deps t deps = XPanic -> exists m, path_in [] m t /\ (m = "root" \/ m = "output")).
  { intros t deps. destruct t as [[|l0 l] id [|a more]|[] lt u|m u|u n|s|s]; cbn [add_type_to_deps]; try discriminate.
    - intros H. apply AP in H. destruct H as (_ & _ & M). exists id. split; [constructor | exact M].
    - destruct (String.eqb id "Pin").
      + destruct more; [|discriminate]. destruct a as [| [] lt [l i b| | | | |] | | | |]; try discriminate.
        intros H. apply AP in H. destruct H as (-> & -> & M). exists i. split; [|exact M].
        eapply pi_arg; [left; reflexivity|]. repeat constructor.
      + destruct (_ || _); [|discriminate]. destruct more; [|discriminate]. destruct a as [l i b| | | | |]; try discriminate.
        intros H. apply AP in H. destruct H as (-> & -> & M). exists i. split; [|exact M].
        eapply pi_arg; [left; reflexivity|]. repeat constructor.
    - destruct u as [l i b| | | | |]; try discriminate. intros H. apply AP in H. destruct H as (-> & -> & M).
      exists i. split; [repeat constructor | exact M]. }
  assert (AI : forall ins deps, add_inputs ins deps = XPanic -> exists p t m, In (FTyped p t) ins /\ path_in [] m t /\ (m = "root" \/ m = "output")).
  { induction ins as [|[p t|s] ins IH]; intros deps; cbn [add_inputs]; try discriminate.
    destruct (add_type_to_deps t deps) eqn:A; intros H; try discriminate.
    - destruct (IH _ H) as (p' & t' & m & I & X). exists p', t', m. split; [right; exact I | exact X].
    - destruct (AT _ _ A) as (m & X). exists p, t, m. split; [left; reflexivity | exact X]. }
  intros ins out. unfold assemble_extern_fun_deps, sig_type. destruct out as [|r].
  - intros H. destruct (AI _ _ H) as (p & t & m & I & X). exists t, m. split; [left; eauto | exact X].
  - destruct (add_type_to_deps r []) eqn:A; intros H; try discriminate.
    + destruct (AI _ _ H) as (p & t & m & I & X). exists t, m. split; [left; eauto | exact X].
    + destruct (AT _ _ A) as (m & X). exists r, m. split; [right; reflexivity | exact X].
Qed.
Print Assumptions c57_panics_only_on_module_names.

Example c57_nonvacuous :
  assemble_extern_fun_deps
    [FTyped "a" (TPath [] "A" []); FTyped "b" (TRef false (Some "x") (TPath [] "B" []));
     FTyped "c" (TPath [] "Pin" [TRef true None (TPath [] "C" [])]); FTyped "d" (TPath [] "Vec" [TPath [] "A" []])]
    (RType (TPath [] "Box" [TPath [] "D" []])) = XOk [QN [] "D"; QN [] "A"; QN [] "B"; QN [] "C"] /\
  assemble_extern_fun_deps [FTyped "a" (TPath [] "Box" [TPath [] "Vec" [TPath [] "A" []]])] RDefault = XErr ExUnsupported /\
  assemble_extern_fun_deps [FTyped "a" (TRef false None (TPath ["n"] "A" []))] RDefault = XErr ExNamespace.
Proof. repeat split; reflexivity. Qed.
