(** Facts for C84: converting a type twice, and the names in the types of analysed parameters. *)
From Coq Require Import Relations.
From Verif Require Import Base QNamesModel KnownTypesModel KnownTypesProofs ApiModel NameCheckModel TypesModel TypesSpec
  TypedefsModel TypedefsProofs CppTypesModel ConcreteNamesModel TypeConverterModel TypeConverterProofs
  TypeConverterProps TypeConverterDepsProps ByValueModel ConversionModel SynthNamesModel TrackersModel FnAnalysisModel FnAnalysisProofs.

(** * Converting again *)
Definition agrees (a b : annotated) : Prop :=
  ann_ty b = ann_ty a /\ ann_deps b = ann_deps a /\ ann_kind b = ann_kind a /\ ann_extra b = [].
Lemma extends_refl cs : extends cs cs.
Proof. intros d n H. exact H. Qed.
Lemma extends_trans a b c : extends a b -> extends b c -> extends a c.
Proof. intros H1 H2 d n H. apply H2, H1, H. Qed.

Section Again.
Variable env : tc_env.
Variable ns : list string.
Variable rec : concretes -> tc_ctx -> ty -> concretes * out annotated.
Hypothesis Hmono : forall cs c t cs' a, rec cs c t = (cs', OOk a) -> extends cs cs'.
Hypothesis Hrec : forall cs c t cs' a cs2, rec cs c t = (cs', OOk a) -> extends cs' cs2 ->
  exists b, rec cs2 c t = (cs2, OOk b) /\ agrees a b.

Lemma args_mono args : forall cs cs' r, convert_args rec cs args = (cs', OOk r) -> extends cs cs'.
Proof.
  induction args as [|x rest IH]; intros cs cs' r H; [injection H as <- _; apply extends_refl|].
  destruct x; cbn in H; apply tbind_ok in H as (cs1 & i & H1 & H).
  6: { destruct i as [[? ?] ?]. injection H as <- _. apply (IH _ _ _ H1). }
  all: apply tbind_ok in H as (cs3 & [[? ?] ?] & H2 & H); injection H as <- _; eapply extends_trans; [apply (Hmono _ _ _ _ _ H1) | apply (IH _ _ _ H2)].
Qed.
Lemma args_again args : forall cs cs' l d x cs2, convert_args rec cs args = (cs', OOk (l, d, x)) -> extends cs' cs2 ->
  convert_args rec cs2 args = (cs2, OOk (l, d, [])).
Proof.
  induction args as [|a rest IH]; intros cs cs' l d x cs2 H X; [injection H as _ <- <- _; reflexivity|].
  destruct a; cbn in H |- *; apply tbind_ok in H as (cs1 & i & H1 & H).
  6: { destruct i as [[l1 d1] x1]. injection H as <- <- <- <-. rewrite (IH _ _ _ _ _ _ H1 X). reflexivity. }
  all: apply tbind_ok in H as (cs3 & [[l1 d1] x1] & H2 & H); injection H as <- <- <- <-;
    destruct (Hrec _ _ _ _ _ cs2 H1 (extends_trans _ _ _ (args_mono _ _ _ _ H2) X)) as (b & R & E1 & E2 & E3 & E4);
    rewrite R; cbn [tbind]; rewrite (IH _ _ _ _ _ _ H2 X); cbn [tbind]; rewrite E1, E2, E4; reflexivity.
Qed.
Lemma resolved_again cs c tn deps lead id args cs' a cs2 : convert_resolved env rec cs c tn deps lead id args = (cs', OOk a) -> extends cs' cs2 ->
  exists b, convert_resolved env rec cs2 c tn deps lead id args = (cs2, OOk b) /\ agrees a b.
Proof.
  unfold convert_resolved. fold (substituted tn lead id args). destruct (substituted_path tn lead id args) as (l' & i' & E). rewrite E.
  intros H X. destruct args as [|a0 ra].
  { injection H as <- <-. eexists. split; [reflexivity|]. repeat split. }
  assert (G : forall gb, tbind (convert_args rec cs (a0 :: ra)) (fun cs1 r => let '(l, d, _) := r in
            match confirm_payload env gb l with
            | OOk k => (cs1, OOk (Ann (TPath l' i' l) (deps ++ d) [] k))
            | OErr e => (cs1, OErr e) | OPanic => (cs1, OPanic) | OFuel => (cs1, OFuel) end) = (cs', OOk a) ->
     exists b, tbind (convert_args rec cs2 (a0 :: ra)) (fun cs1 r => let '(l, d, _) := r in
            match confirm_payload env gb l with
            | OOk k => (cs1, OOk (Ann (TPath l' i' l) (deps ++ d) [] k))
            | OErr e => (cs1, OErr e) | OPanic => (cs1, OPanic) | OFuel => (cs1, OFuel) end) = (cs2, OOk b) /\ agrees a b).
  { intros gb K. apply tbind_ok in K as (cs1 & [[l d] x] & H1 & K). destruct (confirm_payload env gb l) as [k| | |] eqn:CP; try discriminate.
    injection K as <- <-. rewrite (args_again _ _ _ _ _ _ _ H1 X). cbn [tbind]. rewrite CP. eexists. split; [reflexivity|]. repeat split. }
  destruct (cxx_generic_behavior tn); [|apply G, H|apply G, H|apply G, H].
  destruct (mentions_param c (a0 :: ra)); [discriminate|]. destruct (path_name l' i') as [q|]; [|discriminate].
  destruct (qmem q (tc_ignored env)); [discriminate|]. destruct (type_to_cpp (tc_names env) (TPath l' i' (a0 :: ra))) as [def| |]; try discriminate.
  destruct (get_templated_typename cs def) as [[cs1 n] made] eqn:GT. injection H as <- <-.
  destruct (get_made _ _ _ _ _ GT) as (G1 & _). apply X in G1. unfold get_templated_typename. rewrite G1. eexists. split; [reflexivity|]. repeat split.
Qed.
Lemma plain_again cs c lead id args cs' a cs2 : convert_plain_path env ns rec cs c lead id args = (cs', OOk a) -> extends cs' cs2 ->
  exists b, convert_plain_path env ns rec cs2 c lead id args = (cs2, OOk b) /\ agrees a b.
Proof.
  unfold convert_plain_path. intros H X. destruct (qualify env ns lead id) as [[lead1 id1]|e|]; try discriminate.
  destruct (path_name lead1 id1) as [orig|]; [|discriminate]. destruct (validate_ident_ok_for_cxx _ _ _); try discriminate.
  destruct (tc_blocked env (to_cpp_name orig)); [discriminate|].
  destruct (resolve_typedef (tc_typedefs env) orig) as [[t|]|n| | |]; try discriminate.
  - destruct t as [rl ri ra|m lt t|m t|t n|s|s]; [destruct (path_name rl ri) as [q|]; [eapply resolved_again; eauto | discriminate]|..];
      injection H as <- <-; (eexists; split; [reflexivity|]; repeat split).
  - eapply resolved_again; eauto.
Qed.
Lemma actual_again cs c lead id args cs' a cs2 : convert_actual_path env ns rec cs c lead id args = (cs', OOk a) -> extends cs' cs2 ->
  exists b, convert_actual_path env ns rec cs2 c lead id args = (cs2, OOk b) /\ agrees a b.
Proof.
  unfold convert_actual_path. intros H X. apply tbind_ok in H as (cs1 & a0 & H1 & H).
  assert (cs' = cs1) as ->.
  { destruct (ann_ty a0); [destruct (path_name _ _); [|discriminate]; destruct (negb _ && _); [discriminate|]; destruct (should_dereference_in_cpp _)|..]; congruence. }
  destruct (plain_again _ _ _ _ _ _ _ _ H1 X) as (b & R & E1 & E2 & E3 & E4). rewrite R. cbn [tbind]. rewrite E1.
  destruct (ann_ty a0) as [nl ni na|m lt t|m t|t n|s|s] eqn:T.
  2-6: injection H as <-; exists b; split; [reflexivity|]; repeat split; congruence.
  destruct (path_name nl ni) as [q|]; [|discriminate]. destruct (negb _ && _); [discriminate|].
  destruct (should_dereference_in_cpp q); injection H as <-; [eexists; split; [reflexivity|]; repeat split; assumption|].
  exists b. split; [reflexivity|]. repeat split; congruence.
Qed.
Lemma step_again cs c t cs' a cs2 : convert_step env ns rec cs c t = (cs', OOk a) -> extends cs' cs2 ->
  exists b, convert_step env ns rec cs2 c t = (cs2, OOk b) /\ agrees a b.
Proof.
  assert (W : forall e (f : annotated -> annotated), (forall x y, agrees x y -> agrees (f x) (f y)) ->
    tbind (rec cs WithinReference e) (fun cs1 i => (cs1, OOk (f i))) = (cs', OOk a) -> extends cs' cs2 ->
    exists b, tbind (rec cs2 WithinReference e) (fun cs1 i => (cs1, OOk (f i))) = (cs2, OOk b) /\ agrees a b).
  { intros e f F K X. apply tbind_ok in K as (cs1 & i & H1 & K). injection K as <- <-.
    destruct (Hrec _ _ _ _ _ _ H1 X) as (b & R & E). rewrite R. eexists. split; [reflexivity|]. apply F, E. }
  destruct t as [lead id args|m lt e|m e|e n|s|s]; cbn [convert_step]; intros H X; try discriminate.
  - unfold convert_type_path in *. destruct (unwrap_marker unused_marker lead id args) as [t|]; [eapply Hrec; eauto|].
    destruct (unwrap_marker opaque_marker lead id args) as [t|]; [eapply Hrec; eauto|].
    destruct (unwrap_reference false lead id args) as [[m e]|].
    { refine (W e (fun i => Ann (if m then pin_mut (ann_ty i) else TRef false None (ann_ty i)) (ann_deps i) (ann_extra i) (if m then TkMutableReference else TkReference)) _ H X).
      intros x y (E1 & E2 & E3 & E4). unfold agrees. cbn [ann_ty ann_deps ann_kind ann_extra]. rewrite E1, E2, E4. auto. }
    destruct (unwrap_reference true lead id args) as [[m e]|]; [|eapply actual_again; eauto].
    destruct (ensure_pointee e); [discriminate|].
    refine (W e (fun i => Ann (TPtr m (ann_ty i)) (ann_deps i) (ann_extra i) TkRValueReference) _ H X).
    intros x y (E1 & E2 & E3 & E4). unfold agrees. cbn [ann_ty ann_deps ann_kind ann_extra]. rewrite E1, E2, E4. auto.
  - refine (W e (fun i => Ann (TRef m lt (ann_ty i)) (ann_deps i) (ann_extra i) TkReference) _ H X).
    intros x y (E1 & E2 & E3 & E4). unfold agrees. cbn [ann_ty ann_deps ann_kind ann_extra]. rewrite E1, E2, E4. auto.
  - destruct (ensure_pointee e); [discriminate|].
    refine (W e (fun i => Ann (TPtr m (ann_ty i)) (ann_deps i) (ann_extra i) TkPointer) _ H X).
    intros x y (E1 & E2 & E3 & E4). unfold agrees. cbn [ann_ty ann_deps ann_kind ann_extra]. rewrite E1, E2, E4. auto.
  - refine (W e (fun i => Ann (TArray (ann_ty i) n) (ann_deps i) (ann_extra i) TkRegular) _ H X).
    intros x y (E1 & E2 & E3 & E4). unfold agrees. cbn [ann_ty ann_deps ann_kind ann_extra]. rewrite E1, E2, E4. auto.
Qed.
End Again.

Lemma convert_again env ns : forall fuel cs c t cs' a cs2, convert_type fuel env ns cs c t = (cs', OOk a) -> extends cs' cs2 ->
  exists b, convert_type fuel env ns cs2 c t = (cs2, OOk b) /\ agrees a b.
Proof.
  induction fuel as [|k IH]; intros cs c t cs' a cs2 H X; [discriminate|]. cbn [convert_type] in *.
  apply (step_again env ns (convert_type k env ns)) with (cs := cs) (cs' := cs'); [|exact IH|exact H|exact X].
  intros cs0 c0 t0 cs0' a0 H0. apply (c63_instantiations_registered_partial _ _ _ _ _ _ _ _ H0).
Qed.

(** * The names in a signature *)
Definition names (t : ty) (q : qname) : Prop := exists l id, path_in l id t /\ refers_to (TPath l id []) q.
(** The name of the Rust type behind a subclass. *)
Definition holder (q : qname) : Prop := exists h sub, q = QN [] h /\ from_holder_name h = Some sub.

Lemma names_sub t u q : (forall l id, path_in l id t -> path_in l id u) -> names t q -> names u q.
Proof. intros H (l & id & P & R). exists l, id. auto. Qed.
Lemma names_ptr m t q : names (TPtr m t) q -> names t q.
Proof. intros (l & id & P & R). inversion P; subst. exists l, id. auto. Qed.
Lemma names_box lead id0 t q p : path_name lead id0 = Some p -> known_name p -> names (TPath lead id0 [t]) q -> names t q \/ known_name q.
Proof.
  intros N K (l & id & P & R). inversion P as [| ? ? ? ? ? a Ia Pa | | |]; subst.
  - right. apply path_name_refers in R. congruence.
  - destruct Ia as [<-|[]]. left. exists l, id. auto.
Qed.
Lemma names_unique t q : names (make_unique_ptr_type t) q -> names t q \/ known_name q.
Proof. apply names_box with (p := QN ["cxx"] "UniquePtr"); [reflexivity|]. apply known_name_get. eexists. vm_compute. reflexivity. Qed.

Lemma policy_names env an mv force soph self pl pol q :
  argument_conversion_details env an mv force soph self pl = Some pol -> names (converted_rust_type pol) q ->
  names (ann_ty an) q \/ known_name q \/ holder q.
Proof.
  intros H N.
  assert (D : forall t, (forall l id, path_in l id t -> path_in l id (ann_ty an)) -> pol_type pol = t -> names (ann_ty an) q \/ known_name q \/ holder q).
  { intros t S E. assert (X : names (pol_type pol) q \/ known_name q).
    { unfold converted_rust_type in N. destruct (pol_cpp pol); auto; [apply names_unique, N | left; apply (names_ptr _ _ _ N)]. }
    destruct X as [X|X]; [|auto]. left. rewrite E in X. apply (names_sub _ _ _ S X). }
  apply details_cases in H as [(h & sub & _ & F & ->)|[(_ & _ & ->)|H]].
  - cbn in N. destruct N as (l & id & P & R). inversion P as [| ? ? ? ? ? a Ia Pa | | |]; subst.
    + right. left. apply path_name_refers in R. assert (q = QN ["rust"] "Box") as -> by (vm_compute in R; congruence). apply known_name_get. eexists. vm_compute. reflexivity.
    + destruct Ia as [<-|[]]. inversion Pa as [| ? ? ? ? ? ? Ib | | |]; subst; [|destruct Ib].
      right. right. exists h, sub. split; [|exact F]. apply path_name_refers in R. rewrite path_name_cases in R. cbn in R.
      destruct (String.eqb h "root"), (String.eqb h "output"); cbn in R; congruence.
  - eapply D; [|reflexivity]. auto.
  - unfold general_conversion in H. destruct (ann_ty an) as [lead id args|m lt e|m e|e n|s|s] eqn:T.
    + destruct (_ && _ && _).
      * destruct args as [|a0 ar]; [discriminate|]. destruct a0; try discriminate. cbn in H. injection H as <-. eapply D; [|reflexivity].
        intros l i P. inversion P; subst. eapply pi_arg; [left; reflexivity|]. constructor. assumption.
      * destruct (path_name lead id); [|discriminate]. policy_cases H; injection H as <-; eapply D; try reflexivity; auto.
    + policy_cases H; injection H as <-; (eapply D; [|reflexivity]); auto. intros l i P. inversion P; subst. constructor. assumption.
    + policy_cases H; injection H as <-; (eapply D; [|reflexivity]); auto. intros l i P. constructor. assumption.
    + injection H as <-. eapply D; [|reflexivity]. auto.
    + injection H as <-. eapply D; [|reflexivity]. auto.
    + injection H as <-. eapply D; [|reflexivity]. auto.
Qed.

(** ** States *)
Definition ext (st st' : fn_state) : Prop := extends (fs_concretes st) (fs_concretes st').
Definition Quiet {A} (m : M A) : Prop := forall st, fs_concretes (fst (m st)) = fs_concretes st.
Lemma quiet_ret {A} (a : A) : Quiet (ret a). Proof. intros st. reflexivity. Qed.
Lemma quiet_panic {A} : Quiet (@panic A). Proof. intros st. reflexivity. Qed.
Lemma quiet_fail {A} e : Quiet (@fail A e). Proof. intros st. reflexivity. Qed.
Lemma quiet_bind {A B} (m : M A) (f : A -> M B) : Quiet m -> (forall a, Quiet (f a)) -> Quiet (bind m f).
Proof. intros H1 H2 st. unfold bind. specialize (H1 st). destruct (m st) as [st1 [a| | |]]; cbn in *; try assumption. rewrite H2. exact H1. Qed.
Lemma quiet_option {A} (o : option A) : Quiet (of_option o). Proof. destruct o; [apply quiet_ret | apply quiet_panic]. Qed.
Lemma quiet_verdict v : Quiet (of_verdict v). Proof. destruct v; intros st; reflexivity. Qed.
Lemma quiet_overload ns t n : Quiet (get_overload_name ns t n).
Proof. intros st. unfold get_overload_name. destruct (overload_step _ _). reflexivity. Qed.
Lemma quiet_bridge ns t n : Quiet (get_cxx_bridge_name ns t n).
Proof. intros st. unfold get_cxx_bridge_name. destruct (bridge_step _ _). reflexivity. Qed.
Lemma quiet_keyword env n : Quiet (rust_keyword env n).
Proof. unfold rust_keyword. destruct (tc_lexes _ n); [apply quiet_ret | apply quiet_panic]. Qed.
Create HintDb quiet.
#[local] Hint Resolve quiet_ret quiet_panic quiet_fail quiet_option quiet_verdict quiet_overload quiet_bridge quiet_keyword : quiet.
Ltac quiet := repeat match goal with
  | |- Quiet (bind _ _) => apply quiet_bind
  | |- forall _, Quiet _ => intros ?
  | |- Quiet _ => solve [auto with quiet]
  | |- Quiet (match ?x with _ => _ end) => destruct x
  end.
Lemma quiet_ideal env c i : Quiet (ideal_rust_name env c i). Proof. unfold ideal_rust_name. quiet. Qed.
Lemma quiet_this v t : Quiet (this_details v t). Proof. unfold this_details. quiet. Qed.
Lemma quiet_trait env s ns i self : Quiet (trait_creation_details env s ns i self). Proof. unfold trait_creation_details. quiet. Qed.
#[local] Hint Resolve quiet_ideal quiet_this quiet_trait : quiet.
Lemma quiet_kind env fn ns p i st self r b : Quiet (fn_kind_and_name env fn ns p i st self r b).
Proof. unfold fn_kind_and_name. quiet. Qed.
Lemma quiet_ok {A} (m : M A) st st' r : Quiet m -> m st = (st', r) -> fs_concretes st' = fs_concretes st.
Proof. intros Q H. specialize (Q st). rewrite H in Q. exact Q. Qed.

Lemma boxed_ok env ns t st st' an : convert_boxed_type env ns t st = (st', OOk an) ->
  convert_type (fe_fuel env) (fe_tc env) ns (fs_concretes st) OuterType t = (fs_concretes st', OOk an).
Proof.
  unfold convert_boxed_type. destruct (convert_type _ _ _ _ _ _) as [cs [a|e| |]]; intros H; try discriminate. injection H as <- <-. reflexivity.
Qed.
(** The type an argument is converted at. *)
Definition taken_as (vt : option qname) (this_ref : bool) (n : string) (t t' : ty) : Prop :=
  if String.eqb n "this" then
    exists self st m e, this_details vt t st = (st, OOk (TPtr m e, self)) /\ t' = (if this_ref then TPath [] "__bindgen_marker_Reference" [TPtr m e] else TPtr m e)
  else t' = t.
Lemma arg_states env ns vt tr mv force soph ctor n t st st' p : convert_fn_arg env ns vt tr mv force soph ctor n t st = (st', OOk p) ->
  exists an t', taken_as vt tr n t t' /\ convert_type (fe_fuel env) (fe_tc env) ns (fs_concretes st) OuterType t' = (fs_concretes st', OOk an) /\
    a_deps (snd p) = ann_deps an /\ snd (fst p) = ann_ty an /\
    exists self pl, argument_conversion_details env an mv force soph self pl = Some (a_conv (snd p)).
Proof.
  unfold convert_fn_arg. intros H. apply bind_ok in H as (st1 & [[n' t'] self] & H1 & H).
  apply bind_ok in H as (st2 & an & H2 & H). apply bind_ok in H as (st3 & conv & H3 & H).
  apply of_option_ok in H3 as [H3 ->]. apply ret_ok in H as [-> ->]. apply boxed_ok in H2.
  exists an, t'. assert (Q : fs_concretes st1 = fs_concretes st /\ taken_as vt tr n t t').
  { unfold taken_as. destruct (String.eqb n "this").
    - apply bind_ok in H1 as (st4 & [t1 s] & H1 & H4). apply ret_ok in H4 as [-> H4]. injection H4 as _ -> _. split; [apply (quiet_ok _ _ _ _ (quiet_this vt t) H1)|].
      unfold this_details in H1. destruct t as [| |m e| | |]; try discriminate. destruct e as [lead id args| | | | |]; try discriminate.
      destruct (match unwrap_marker opaque_marker lead id args with Some (TPath l i _) => (l, i) | _ => (lead, id) end) as [l1 i1] eqn:E.
      destruct vt as [v|].
      + apply ret_ok in H1 as [_ H1]. injection H1 as -> ->. eexists _, st, m, _. split; [|reflexivity]. cbn. rewrite E. reflexivity.
      + apply bind_ok in H1 as (s5 & q & H1 & H5). apply of_option_ok in H1 as [H1 ->]. apply ret_ok in H5 as [_ H5]. injection H5 as -> ->.
        eexists _, st, m, _. split; [|reflexivity]. cbn [this_details]. rewrite E, H1. reflexivity.
    - apply bind_ok in H1 as (st4 & u & H1 & H4). apply ret_ok in H4 as [-> H4]. injection H4 as _ -> _. split; [apply (quiet_ok _ _ _ _ (quiet_verdict _) H1) | reflexivity]. }
  destruct Q as [Q T]. rewrite Q in H2. cbn. eauto 10.
Qed.
Lemma arg_ext env ns vt tr mv force soph ctor n t st st' p : convert_fn_arg env ns vt tr mv force soph ctor n t st = (st', OOk p) -> ext st st'.
Proof.
  intros H. apply arg_states in H as (an & t' & _ & C & _). apply (c63_instantiations_registered_partial _ _ _ _ _ _ _ _ C).
Qed.
Lemma this_functional vt t s s' t1 t2 x1 x2 : this_details vt t s = (s, OOk (t1, x1)) -> this_details vt t s' = (s', OOk (t2, x2)) -> t1 = t2.
Proof.
  unfold this_details. intros H1 H2. destruct t as [| |m e| | |]; try discriminate. destruct e as [lead id args| | | | |]; try discriminate.
  destruct (match unwrap_marker opaque_marker lead id args with Some (TPath l i _) => (l, i) | _ => (lead, id) end) as [l1 i1].
  destruct vt as [v|].
  - injection H1 as <- _. injection H2 as <- _. reflexivity.
  - unfold bind in *. destruct (path_name l1 i1); [|discriminate]. injection H1 as <- _. injection H2 as <- _. reflexivity.
Qed.
Lemma reconverted env ns vt soph n t s1 s2 p0 mv force soph' ctor s s' p :
  convert_fn_arg env ns vt true false None soph false n t s1 = (s2, OOk p0) -> ext s2 s ->
  convert_fn_arg env ns vt false mv force soph' ctor n t s = (s', OOk p) -> a_deps (snd p) = a_deps (snd p0).
Proof.
  intros H0 X H. apply arg_states in H0 as (a0 & t0 & T0 & C0 & D0 & _). apply arg_states in H as (a & t' & T & C & D & _).
  rewrite D, D0. unfold taken_as in *. destruct (String.eqb n "this").
  - destruct T0 as (self0 & u0 & m0 & e0 & TD0 & ->). destruct T as (self & u & m & e & TD & ->).
    pose proof (this_functional _ _ _ _ _ _ _ _ TD0 TD) as E. injection E as <- <-.
    destruct (fe_fuel env) as [|k]; [discriminate|]. cbn [convert_type convert_step] in *. unfold convert_type_path in C0. cbn in C0.
    apply tbind_ok in C0 as (cs1 & i & C0 & K). injection K as E1 E2. subst cs1 a0.
    destruct (ensure_pointee e0); [discriminate|]. apply tbind_ok in C as (cs2 & j & C & K). injection K as E1 E2. subst cs2 a.
    destruct (convert_again _ _ _ _ _ _ _ _ _ C0 X) as (b & R & _ & E & _). rewrite R in C. injection C as E3 E4. subst. exact E.
  - subst. destruct (convert_again _ _ _ _ _ _ _ _ _ C0 X) as (b & R & _ & E & _). rewrite R in C. injection C as _ E3. subst. exact E.
Qed.
Lemma params_states env fn ns soph : forall inputs st st' ps, convert_params env fn ns soph inputs st = (st', OOk (ps, [])) ->
  ext st st' /\ Forall2 (fun i p => exists s1 s2,
     convert_fn_arg env ns (f_this fn) true false None soph false (fst i) (snd i) s1 = (s2, OOk p) /\ ext s2 st') inputs ps.
Proof.
  induction inputs as [|[n t] rest IH]; intros st st' ps H; cbn [convert_params] in H.
  - apply ret_ok in H as [-> H]. injection H as ->. split; [apply extends_refl | constructor].
  - apply bind_ok in H as (st1 & r & H1 & H). apply bind_ok in H as (st2 & [ps1 bads1] & H2 & H). apply ret_ok in H as [-> H].
    apply catch_ok in H1 as [(p & H1 & ->)|(e' & H1 & ->)]; [|discriminate]. injection H as -> <-.
    destruct (IH _ _ _ H2) as [E F]. split; [eapply extends_trans; [apply (arg_ext _ _ _ _ _ _ _ _ _ _ _ _ _ H1) | exact E]|].
    constructor; [|exact F]. exists st, st1. split; [exact H1 | exact E].
Qed.
(** Every parameter after the receiver has been dealt with depends on what the parameters did before, if none was refused. *)
Lemma receiver_deps env fn ns soph kind st0 st1 ps0 s s' ps1 :
  convert_params env fn ns soph (f_inputs fn) st0 = (st1, OOk (ps0, [])) -> ext st1 s ->
  fix_receiver env fn ns soph kind ps0 s = (s', OOk (None, ps1)) ->
  ext s s' /\ forall p, In p ps1 -> exists p0, In p0 ps0 /\ a_deps (snd p) = a_deps (snd p0) /\
    (p = p0 \/ exists idx n t mv force ctor s1 s2, nth_error (f_inputs fn) idx = Some (n, t) /\
       convert_fn_arg env ns (f_this fn) false mv force soph ctor n t s1 = (s2, OOk p)).
Proof.
  intros CP X H. apply params_states in CP as [_ F2].
  assert (AT : forall idx n t, nth_error (f_inputs fn) idx = Some (n, t) -> exists p0 s1 s2, In p0 ps0 /\
    convert_fn_arg env ns (f_this fn) true false None soph false n t s1 = (s2, OOk p0) /\ ext s2 st1).
  { clear H. intros idx n t N. revert idx N. induction F2 as [|[n0 t0] p0 ii pp (s1 & s2 & C & E) F2 IH]; intros [|idx] N; cbn in N; try discriminate.
    - injection N as -> ->. exists p0, s1, s2. split; [left; reflexivity | auto].
    - destruct (IH idx N) as (p1 & u1 & u2 & I & R). exists p1, u1, u2. split; [right; exact I | exact R]. }
  assert (RE : forall idx force ctor mv qs u u' qs', ext st1 u -> reanalyze env fn ns idx force soph ctor mv qs u = (u', OOk qs') ->
    ext u u' /\ forall p, In p qs' -> In p qs \/ exists p0 n t s1 s2, In p0 ps0 /\ a_deps (snd p) = a_deps (snd p0) /\ nth_error (f_inputs fn) idx = Some (n, t) /\
       convert_fn_arg env ns (f_this fn) false mv force soph ctor n t s1 = (s2, OOk p)).
  { intros idx force ctor mv qs u u' qs' XU R. apply reanalyze_ok in R as (n & t & p & N & L & -> & C).
    split; [apply (arg_ext _ _ _ _ _ _ _ _ _ _ _ _ _ C)|]. intros p' I. apply In_set_nth in I as [->|I]; [right|left; exact I].
    destruct (AT _ _ _ N) as (p0 & s1 & s2 & I0 & C0 & E0). exists p0, n, t, u, u'. split; [exact I0|]. split; [|split; [exact N | exact C]].
    apply (reconverted _ _ _ _ _ _ _ _ _ _ _ _ _ _ _ _ C0 (extends_trans _ _ _ E0 XU) C). }
  assert (ONE : forall ig0 force ctor mv, keep_going ig0 ps0 (reanalyze env fn ns 0 force soph ctor mv ps0) s = (s', OOk (None, ps1)) ->
    ext s s' /\ forall p, In p ps1 -> exists p0, In p0 ps0 /\ a_deps (snd p) = a_deps (snd p0) /\
    (p = p0 \/ exists idx n t mv force ctor s1 s2, nth_error (f_inputs fn) idx = Some (n, t) /\
       convert_fn_arg env ns (f_this fn) false mv force soph ctor n t s1 = (s2, OOk p))).
  { intros ig0 force ctor mv K. apply keep_going_ok in K as [[_ K]|[(e & E & _) _]]; [|discriminate].
    destruct (RE _ _ _ _ _ _ _ _ X K) as [E P]. split; [exact E|]. intros p I. destruct (P p I) as [I0|(p0 & n & t & u1 & u2 & I0 & D & N & C)].
    - exists p. auto.
    - exists p0. split; [exact I0|]. split; [exact D|]. right. exists 0, n, t, mv, force, ctor, u1, u2. auto. }
  assert (NONE : ret (None : option cpp_error, ps0) s = (s', OOk (None, ps1)) -> ext s s' /\ forall p, In p ps1 -> exists p0, In p0 ps0 /\ a_deps (snd p) = a_deps (snd p0) /\
    (p = p0 \/ exists idx n t mv force ctor s1 s2, nth_error (f_inputs fn) idx = Some (n, t) /\
       convert_fn_arg env ns (f_this fn) false mv force soph ctor n t s1 = (s2, OOk p))).
  { intros K. apply ret_ok in K as [-> K]. injection K as ->. split; [apply extends_refl|]. intros p I. exists p. auto. }
  unfold fix_receiver in H. destruct kind as [|mk q|tk q]; [apply NONE, H| |].
  - destruct mk; try (apply NONE, H). eapply ONE, H.
  - destruct tk; try (apply NONE, H); try (eapply ONE, H).
    apply bind_ok in H as (u & [ig ps'] & H1 & H2). apply keep_going_ok in H2 as [[<- H2]|[(e & E & _) _]]; [|discriminate].
    apply keep_going_ok in H1 as [[_ H1]|[(e & E & _) _]]; [|discriminate].
    destruct (RE _ _ _ _ _ _ _ _ X H1) as [E1 P1]. destruct (RE _ _ _ _ _ _ _ _ (extends_trans _ _ _ X E1) H2) as [E2 P2].
    split; [apply (extends_trans _ _ _ E1 E2)|]. intros p I.
    destruct (P2 p I) as [I0|(p0 & n & t & u1 & u2 & I0 & D & N & C)]; [destruct (P1 p I0) as [I1|(p0 & n & t & u1 & u2 & I1 & D & N & C)]|].
    + exists p. auto.
    + exists p0. split; [exact I1|]. split; [exact D|]. right. repeat eexists; eauto.
    + exists p0. split; [exact I0|]. split; [exact D|]. right. repeat eexists; eauto.
Qed.

(** ** The place for a result *)
Lemma generic_spelling tn lead id args l' i' q : path_name lead id = Some tn -> substituted tn lead id args = TPath l' i' args ->
  path_name l' i' = Some q -> cxx_generic_behavior tn <> GNot -> cxx_generic_behavior q <> GNot.
Proof.
  intros N S P G. assert (SN := substituted_name _ _ _ _ _ _ _ N S P). unfold cxx_generic_behavior in *.
  destruct (kt_get tn) as [td|]; [|congruence]. apply kt_get_iff in SN. rewrite SN. exact G.
Qed.
Lemma converted_args env ns cs c t cs' a : conv_to env ns cs c t cs' a ->
  forall l i ar q, ann_ty a = TPath l i ar -> path_name l i = Some q -> ar = [] \/ cxx_generic_behavior q <> GNot \/ q = QN ["core"; "pin"] "Pin".
Proof.
  assert (PL : forall cs c lead id args cs' a, plain_to env ns cs c lead id args cs' a ->
    forall l i ar q, ann_ty a = TPath l i ar -> path_name l i = Some q -> ar = [] \/ cxx_generic_behavior q <> GNot).
  { intros cs0 c0 lead id args cs0' a0 H l i ar q T P. destruct H as [cs0 c0 lead id args lead1 id1 orig other K1 K2 V B TD NP|
        cs0 c0 lead id args lead1 id1 orig tn deps rl ri l' i' K1 N V B Rs S|
        cs0 c0 lead id args lead1 id1 orig tn deps rl ri ra l' i' q1 def cs0' n made K1 N V B Rs NE S G M PN QI TC GT|
        cs0 c0 lead id args lead1 id1 orig tn deps rl ri ra l' i' cs0' la d x k K1 N V B Rs NE S G A CP]; cbn [ann_ty] in T.
    - destruct (NP _ _ _ T).
    - injection T as _ _ <-. left; reflexivity.
    - match type of T with to_type_path ?n = _ => destruct (to_type_path_name _ _ _ _ _ T P) as [E _] end. left. exact E.
    - injection T as <- <- <-. right. destruct (resolves_name _ _ _ _ _ _ _ _ _ _ N Rs) as (N' & _). eapply generic_spelling; eauto. }
  induction 1 as [? ? ? ? ? ? ? ? _ _ IH|? ? ? ? ? m ? ? ? _ _ _|? ? ? ? ? ? ? ? ? _ _ _ _|? ? ? ? ? ? a0 b _ _ _ _ Pl A|? ? ? ? ? ? ? _ _|? ? ? ? ? ? _ _|? ? ? ? ? ? _ _ _];
    intros l1 i1 ar q T P; cbn [ann_ty] in T; try discriminate.
  - eapply IH; eauto.
  - destruct m; [|discriminate]. injection T as <- <- _. right. right. vm_compute in P. congruence.
  - destruct A; [| |discriminate]; destruct (PL _ _ _ _ _ _ _ Pl _ _ _ _ T P); auto.
Qed.
Lemma place_names env ns cs l i m q cs' a p : conv_to env ns cs OuterType (TPtr m (TPath l i [])) cs' a -> path_name l i = Some q ->
  resolve_typedef (tc_typedefs env) q = TdOk None -> is_known_type q = true \/ In q (tc_found env) ->
  names (ann_ty a) p -> p = q \/ known_name p.
Proof.
  intros H N T F NM. inversion H; subst. cbn [ann_ty] in NM. apply names_ptr in NM.
  match goal with K : conv_to _ _ _ WithinReference _ _ _ |- _ => rename K into C end.
  assert (U : forall mk, unwrap_marker mk l i [] = None) by (intros mk; destruct l; reflexivity).
  assert (R : forall b, unwrap_reference b l i [] = None) by (intros b; unfold unwrap_reference; rewrite U; reflexivity).
  inversion C as [? ? ? ? ? ? ? ? U1|? ? ? ? ? ? ? ? ? U1|? ? ? ? ? ? ? ? ? U1|? ? ? ? ? ? a0 b0 _ _ _ _ Pl A| | |]; subst.
  - rewrite !U in U1. destruct U1; discriminate.
  - rewrite R in U1. discriminate.
  - rewrite R in U1. discriminate.
  - assert (Q : forall l1 i1 o, qualify env ns l i = COk (l1, i1) -> path_name l1 i1 = Some o -> o = q).
    { intros l1 i1 o K P. unfold qualify in K. destruct (_ || _); [congruence|]. rewrite N in K. destruct (is_known_type q) eqn:KQ; [congruence|].
      destruct l; [|discriminate]. destruct F as [F|F]; [congruence|]. apply qmem_In in F. rewrite F in K. congruence. }
    assert (NM0 : names (ann_ty a0) p \/ known_name p).
    { destruct A; auto. right. cbn [ann_ty] in NM. destruct NM as (lx & ix & P & RF). inversion P as [| |? ? ? ? ? P1| |]; subst.
      inversion P1 as [| ? ? ? ? ? ? Ia | | |]; subst; [|destruct Ia]. apply path_name_refers in RF. rewrite path_name_cases in RF. cbn in RF. injection RF as <-. exact known_str. }
    destruct NM0 as [NM0|NM0]; [|auto].
    assert (RS : forall o l1 i1 tn deps rl ri ra, resolves env o l1 i1 [] tn deps rl ri ra -> o = q -> tn = q /\ ra = []).
    { intros o l1 i1 tn deps rl ri ra RR ->. inversion RR; subst; [auto | congruence]. }
    remember [] as no in Pl. destruct Pl as [cs0 c0 lead id args lead1 id1 orig other K1 K2 V B TD NP|
        cs0 c0 lead id args lead1 id1 orig tn deps rl ri l' i' K1 K2 V B Rs S|
        cs0 c0 lead id args lead1 id1 orig tn deps rl ri ra l' i' q1 def cs0' n made K1 K2 V B Rs NE S G M PN QI TC GT|
        cs0 c0 lead id args lead1 id1 orig tn deps rl ri ra l' i' cs0' la d x k K1 K2 V B Rs NE S G AR CP]; subst args;
      pose proof (Q _ _ _ K1 K2) as ->.
    + congruence.
    + cbn [ann_ty] in NM0. destruct (RS _ _ _ _ _ _ _ _ Rs eq_refl) as [-> _]. destruct (resolves_name _ _ _ _ _ _ _ _ _ _ K2 Rs) as (N' & _).
      destruct NM0 as (lx & ix & P & RF). inversion P as [| ? ? ? ? ? ? Ia | | |]; subst; [|destruct Ia].
      assert (SN := substituted_name _ _ _ _ _ _ _ N' S (refers_path_name _ _ _ _ RF)). destruct (kt_get q) as [td|]; [right; exists td; exact SN | auto].
    + destruct (RS _ _ _ _ _ _ _ _ Rs eq_refl) as [_ ->]. congruence.
    + destruct (RS _ _ _ _ _ _ _ _ Rs eq_refl) as [_ ->]. congruence.
Qed.

(** ** The signature *)
(** What a result may be put into: no typedef, no template, and found where its name says. *)
Definition placeable (env : fn_env) : Prop := forall q, In q (fe_moveit env) -> ~ In q (fe_pod_safe env) ->
  resolve_typedef (tc_typedefs (fe_tc env)) q = TdOk None /\ (is_known_type q = true \/ In q (tc_found (fe_tc env))) /\
  cxx_generic_behavior q = GNot /\ q <> QN ["core"; "pin"] "Pin".

Lemma set_if_none ig b t : set_if ig b t = None -> ig = None.
Proof. unfold set_if. destruct b; [discriminate | auto]. Qed.
Lemma references_none r details ig : check_references r details ig = None -> ig = None.
Proof.
  unfold check_references. intros H.
  assert (X : (if r_ref r then set_if (set_if ig (List.length (filter a_lifetime details) =? 0)%nat "NoInputReference") (1 <? List.length (filter a_lifetime details))%nat "MultipleInputReferences" else ig) = None).
  { destruct (r_mutref r); [|exact H]. apply set_if_none, set_if_none in H. exact H. }
  destruct (r_ref r); [|exact X]. apply set_if_none, set_if_none in X. exact X.
Qed.
Lemma unsupported_none env fn kind bads ig : check_unsupported env fn kind bads ig = None -> bads = [] /\ ig = None.
Proof.
  unfold check_unsupported. intros H. destruct bads; [|discriminate]. split; [reflexivity|].
  repeat match type of H with (if ?b then Some _ else _) = None => destruct b; [discriminate|] end.
  destruct kind as [|mk q|tk q].
  - apply set_if_none, set_if_none in H. exact H.
  - repeat match type of H with (if ?b then Some _ else _) = None => destruct b; [discriminate|] end. repeat apply set_if_none in H. exact H.
  - repeat apply set_if_none in H. exact H.
Qed.
Lemma not_ignored env name fn soph pre fa ps0 bads ig0 ps1 r ig2 b0 kw :
  pieces env name fn soph pre fa ps0 bads ig0 ps1 r ig2 b0 kw -> fa_ignore fa = None ->
  bads = [] /\ ig0 = None /\ exists s1 s2, convert_return_type env (qn_ns (an_name name)) soph (f_output fn) s1 = (s2, OOk r).
Proof.
  intros PC IG. apply (pc_ignore _ _ _ _ _ _ _ _ _ _ _ _ _ _ PC) in IG as [IG _]. apply references_none in IG.
  destruct (pc_return _ _ _ _ _ _ _ _ _ _ _ _ _ _ PC) as (s1 & s2 & [[C E]|(e & _ & _ & E)]); [|congruence].
  rewrite IG in E. symmetry in E. apply unsupported_none in E as [-> ->]. eauto.
Qed.

Lemma signature_names env name fn soph pre st st' fa nm :
  NoDup (map fst (tc_typedefs (fe_tc env))) -> placeable env ->
  analyze_foreign_fn env name fn soph pre st = (st', OOk (fa, nm)) -> fa_ignore fa = None ->
  forall t q, In t (map snd (fa_params fa)) \/ fa_ret fa = Some t -> names t q -> accounted (fe_tc env) (fa_deps fa) q \/ holder q.
Proof.
  intros ND PL H IG t q W NM. apply analyze_ok in H as (_ & ps0 & bads & ig0 & ps1 & r & ig2 & b0 & kw & PC).
  destruct (not_ignored _ _ _ _ _ _ _ _ _ _ _ _ _ _ PC IG) as (-> & -> & r1 & r2 & CR).
  pose proof (pc_deps _ _ _ _ _ _ _ _ _ _ _ _ _ _ PC) as DEPS.
  destruct (pc_linked _ _ _ _ _ _ _ _ _ _ _ _ _ _ PC) as (s1 & s2 & s3 & s4 & s5 & ideal & static & sty & rc & sec & ctx & _ & CP & HI & HK & FR & _).
  assert (X : ext s2 s4).
  { unfold ext. rewrite (quiet_ok _ _ _ _ (quiet_kind _ _ _ _ _ _ _ _ _) HK), (quiet_ok _ _ _ _ (quiet_ideal _ _ _) HI). apply extends_refl. }
  destruct (receiver_deps _ _ _ _ _ _ _ _ _ _ _ CP X FR) as [_ RD]. clear X HI HK FR.
  (* what a converted argument mentions *)
  assert (ARG : forall vt tr mv force so ctor n t0 u u' p, convert_fn_arg env (qn_ns (an_name name)) vt tr mv force so ctor n t0 u = (u', OOk p) ->
    (names (snd (fst p)) q -> accounted (fe_tc env) (a_deps (snd p)) q) /\
    (names (converted_rust_type (a_conv (snd p))) q -> accounted (fe_tc env) (a_deps (snd p)) q \/ holder q)).
  { intros vt tr mv force so ctor n t0 u u' p C. apply arg_states in C as (an & t' & _ & CT & D & T & self & pl & CD).
    pose proof (c61_dependencies_complete _ _ _ _ _ _ _ _ ND CT) as AC. rewrite D, T. split.
    - intros (l & id & P & R). exact (AC _ _ _ P R).
    - intros NN. destruct (policy_names _ _ _ _ _ _ _ _ _ CD NN) as [(l & id & P & R)|[K|HO]]; [left; exact (AC _ _ _ P R) | left; left; exact K | right; exact HO]. }
  assert (PS : forall p, In p ps1 -> (names (snd (fst p)) q -> accounted (fe_tc env) (fa_deps fa) q) /\
    (names (converted_rust_type (a_conv (snd p))) q -> accounted (fe_tc env) (fa_deps fa) q \/ holder q)).
  { intros p I. destruct (RD p I) as (p0 & I0 & D & O).
    assert (INC : incl (a_deps (snd p)) (fa_deps fa)).
    { rewrite DEPS, D. intros z Hz. apply in_or_app. left. apply in_flat_map. eauto. }
    assert (G : (names (snd (fst p)) q -> accounted (fe_tc env) (a_deps (snd p)) q) /\
      (names (converted_rust_type (a_conv (snd p))) q -> accounted (fe_tc env) (a_deps (snd p)) q \/ holder q)).
    { destruct O as [->|(idx & n & t1 & mv & force & ctor & u1 & u2 & _ & C)]; [|eapply ARG; exact C].
      apply params_states in CP as [_ F2]. clear - ARG F2 I0. induction F2 as [|i p ii pp (u1 & u2 & C & _) F2 IH]; [destruct I0|]; destruct I0 as [->|I0]; [eapply ARG; exact C | apply IH, I0]. }
    destruct G as [G1 G2]. split; [intros NN; apply (accounted_incl _ _ _ _ INC), G1, NN | intros NN; destruct (G2 NN); [left; eapply accounted_incl; eauto | auto]]. }
  (* the result *)
  assert (RET : incl (r_deps r) (fa_deps fa)) by (rewrite DEPS; apply incl_appr, incl_refl).
  apply convert_return_type_ok in CR.
  assert (PLACE : forall p, r_placement r = Some p -> names (snd (fst p)) q \/ names (converted_rust_type (a_conv (snd p))) q -> accounted (fe_tc env) (fa_deps fa) q \/ holder q).
  { intros p E NN. destruct (f_output fn) as [t0|]; [|subst r; discriminate].
    destruct CR as (an & u & HB & [(_ & conv & -> & _)|(l & i & ar & q1 & T & PN & NP & [(IM & _ & p1 & u2 & C & ->)|(_ & ->)])]); try discriminate.
    injection E as ->. destruct (PL _ IM NP) as (TD & FO & GN & PI). apply boxed_ok in HB.
    pose proof (c61_dependencies_complete _ _ _ _ _ _ _ _ ND HB) as AC. apply convert_type_rel in HB.
    destruct (converted_args _ _ _ _ _ _ _ HB _ _ _ _ T PN) as [->|[E|E]]; [|congruence|congruence].
    apply arg_states in C as (an2 & t' & TK & CT & _ & T2 & self & pl & CD). cbn in TK. subst t'. rewrite T in CT. apply convert_type_rel in CT.
    assert (Q : accounted (fe_tc env) (fa_deps fa) q1).
    { eapply accounted_incl; [exact RET|]. cbn. eapply AC; [rewrite T; apply pi_here | apply path_name_refers; exact PN]. }
    assert (NA : names (ann_ty an2) q -> accounted (fe_tc env) (fa_deps fa) q).
    { intros NA. destruct (place_names _ _ _ _ _ _ _ _ _ _ CT PN TD FO NA) as [->|K]; [exact Q | left; exact K]. }
    rewrite T2 in NN. destruct NN as [NN|NN]; [left; apply NA, NN|].
    destruct (policy_names _ _ _ _ _ _ _ _ _ CD NN) as [NN'|[K|HO]]; [left; apply NA, NN' | left; left; exact K | right; exact HO]. }
  assert (ALL : forall p, In p (ps1 ++ match r_placement r with Some p => [p] | None => [] end) ->
    names (snd (fst p)) q \/ names (converted_rust_type (a_conv (snd p))) q -> accounted (fe_tc env) (fa_deps fa) q \/ holder q).
  { intros p I NN. apply in_app_or in I as [I|I]; [destruct (PS p I) as [P1 P2]; destruct NN; auto|].
    destruct (r_placement r) as [p'|] eqn:E; [|destruct I]. destruct I as [->|[]]. eapply PLACE; eauto. }
  destruct W as [W|W].
  - rewrite (pc_fa_params _ _ _ _ _ _ _ _ _ _ _ _ _ _ PC) in W. destruct (is_some (fa_wrapper fa)).
    + rewrite map_map in W. cbn [snd] in W. apply in_map_iff in W as (pd & <- & I). rewrite (pc_details _ _ _ _ _ _ _ _ _ _ _ _ _ _ PC) in I.
      apply in_map_iff in I as (p & <- & I). apply (ALL p I). auto.
    + rewrite map_map in W. apply in_map_iff in W as (p & <- & I). apply (ALL p I). auto.
  - assert (RT : forall t', r_type r = Some t' \/ (exists pol, r_conv r = Some pol /\ populate_return_value pol = true /\ t' = unconverted_rust_type pol) -> names t' q -> accounted (fe_tc env) (r_deps r) q).
    { intros t' E NN. destruct (f_output fn) as [t0|]; [|subst r; destruct E as [E|(? & E & _)]; discriminate].
      destruct CR as (an & u & HB & CR). apply boxed_ok in HB. pose proof (c61_dependencies_complete _ _ _ _ _ _ _ _ ND HB) as AC.
      assert (OK : names (ann_ty an) q \/ known_name q -> accounted (fe_tc env) (ann_deps an) q).
      { intros [(l & id & P & R)|K]; [exact (AC _ _ _ P R) | left; exact K]. }
      destruct CR as [(_ & conv & -> & CV)|(l & i & ar & q1 & T & PN & NP & [(IM & _ & p1 & u2 & C & ->)|(_ & ->)])]; cbn [r_type r_conv r_deps] in *.
      - apply OK. destruct E as [E|(pol & E & _ & ->)]; [injection E as ->; auto|]. injection E as ->.
        destruct (_ && _); [|subst; auto]. unfold return_reference_into_wrapper in CV. destruct (ann_ty an) as [lead id args|m lt e|m e|e n|s|s] eqn:T; try discriminate.
        + unfold extract_pinned_mutable_reference_type in CV. destruct args as [|a0 [|a1 ar]]; try discriminate; destruct a0 as [| [|] lt e | | | | ]; try discriminate.
          destruct (is_pin lead id); [|discriminate]. injection CV as <-. left. apply names_ptr in NN. revert NN. apply names_sub. intros l1 i1 P.
          eapply pi_arg; [left; reflexivity | constructor; exact P].
        + injection CV as <-. left. apply names_ptr in NN. revert NN. apply names_sub. intros l1 i1 P. constructor. exact P.
      - destruct E as [E|(pol & E & E2 & _)]; [discriminate|]. injection E as <-. discriminate.
      - apply OK. destruct E as [E|(pol & E & _ & ->)]; [injection E as ->; auto|]. injection E as <-. apply names_unique. exact NN. }
    left. apply (accounted_incl _ _ _ _ RET), (RT t); [|exact NM]. rewrite (pc_ret _ _ _ _ _ _ _ _ _ _ _ _ _ _ PC) in W.
    destruct (is_some (fa_wrapper fa)); [|auto]. destruct (r_conv r) as [pol|]; [|auto]. destruct (populate_return_value pol) eqn:PP; [|auto].
    injection W as <-. right. eauto.
Qed.
