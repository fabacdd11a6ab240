(** The successful conversions as a relation, and lemmas about it. *)
From Verif Require Import Base QNamesModel KnownTypesModel KnownTypesProofs ApiModel NameCheckModel TypesModel TypesSpec
  TypedefsModel TypedefsProofs CppTypesModel ConcreteNamesModel TypeConverterModel.

Lemma tbind_ok {A B} (x : concretes * out A) f cs (b : B) :
  tbind x f = (cs, OOk b) -> exists cs1 a, x = (cs1, OOk a) /\ f cs1 a = (cs, OOk b).
Proof.
  destruct x as [cs1 [a|e| |]]; cbn; intros H; try discriminate. exists cs1, a. auto.
Qed.

(** The name, path and arguments a path stands for once its typedefs are followed. *)
Inductive resolves (env : tc_env) (orig : qname) (lead : list string) (id : string) (args : list ty)
    : qname -> list qname -> list string -> string -> list ty -> Prop :=
| rs_same : resolve_typedef (tc_typedefs env) orig = TdOk None -> resolves env orig lead id args orig [orig] lead id args
| rs_alias rl ri ra q :
    resolve_typedef (tc_typedefs env) orig = TdOk (Some (TPath rl ri ra)) -> path_name rl ri = Some q ->
    resolves env orig lead id args q (qinsert q [orig]) rl ri ra.

(** The path written for [tn]: the substitute if it is a known type. *)
Definition substituted (tn : qname) (lead : list string) (id : string) (args : list ty) : ty :=
  match kt_get tn with
  | Some td => td_path td args
  | None => let '(l, i) := root_to_output lead id in TPath l i args
  end.

Section Rel.
Variable env : tc_env.
Variable ns : list string.

(** The checks after a path has been converted. *)
Inductive actual : tc_ctx -> annotated -> annotated -> Prop :=
| ac_other c a : (forall l i ar, ann_ty a <> TPath l i ar) -> actual c a a
| ac_path c a l i ar q : ann_ty a = TPath l i ar -> path_name l i = Some q ->
    (allow_forward c = true \/ ~ In q (tc_forward env)) -> should_dereference_in_cpp q = false -> actual c a a
| ac_str c a l i ar q : ann_ty a = TPath l i ar -> path_name l i = Some q ->
    (allow_forward c = true \/ ~ In q (tc_forward env)) -> should_dereference_in_cpp q = true ->
    actual c a (Ann (TRef false None (TPath [] "str" [])) (ann_deps a) (ann_extra a) TkReference).

Inductive conv_to : concretes -> tc_ctx -> ty -> concretes -> annotated -> Prop :=
| ct_marker cs c lead id args t cs' a :
    unwrap_marker unused_marker lead id args = Some t \/ unwrap_marker opaque_marker lead id args = Some t ->
    conv_to cs c t cs' a -> conv_to cs c (TPath lead id args) cs' a
| ct_lref cs c lead id args m e cs' i :
    unwrap_reference false lead id args = Some (m, e) -> conv_to cs WithinReference e cs' i ->
    conv_to cs c (TPath lead id args) cs'
      (Ann (if m then pin_mut (ann_ty i) else TRef false None (ann_ty i)) (ann_deps i) (ann_extra i)
         (if m then TkMutableReference else TkReference))
| ct_rref cs c lead id args m e cs' i :
    unwrap_reference true lead id args = Some (m, e) -> ensure_pointee e = None ->
    conv_to cs WithinReference e cs' i ->
    conv_to cs c (TPath lead id args) cs' (Ann (TPtr m (ann_ty i)) (ann_deps i) (ann_extra i) TkRValueReference)
| ct_path cs c lead id args cs' a b :
    unwrap_marker unused_marker lead id args = None -> unwrap_marker opaque_marker lead id args = None ->
    unwrap_reference false lead id args = None -> unwrap_reference true lead id args = None ->
    plain_to cs c lead id args cs' a -> actual c a b -> conv_to cs c (TPath lead id args) cs' b
| ct_ref cs c m lt e cs' i : conv_to cs WithinReference e cs' i ->
    conv_to cs c (TRef m lt e) cs' (Ann (TRef m lt (ann_ty i)) (ann_deps i) (ann_extra i) TkReference)
| ct_array cs c e n cs' i : conv_to cs WithinReference e cs' i ->
    conv_to cs c (TArray e n) cs' (Ann (TArray (ann_ty i) n) (ann_deps i) (ann_extra i) TkRegular)
| ct_ptr cs c m e cs' i : ensure_pointee e = None -> conv_to cs WithinReference e cs' i ->
    conv_to cs c (TPtr m e) cs' (Ann (TPtr m (ann_ty i)) (ann_deps i) (ann_extra i) TkPointer)
(** [convert_type_path_which_is_not_a_reference] *)
with plain_to : concretes -> tc_ctx -> list string -> string -> list ty -> concretes -> annotated -> Prop :=
| pt_other cs c lead id args lead1 id1 orig other :
    qualify env ns lead id = COk (lead1, id1) -> path_name lead1 id1 = Some orig ->
    validate_ident_ok_for_cxx (tc_lexes env) (tc_reserved env) (qn_item orig) = VOk ->
    tc_blocked env (to_cpp_name orig) = false ->
    resolve_typedef (tc_typedefs env) orig = TdOk (Some other) -> (forall l i a, other <> TPath l i a) ->
    plain_to cs c lead id args cs
      (Ann other [orig] [] (match other with TPtr _ _ => TkPointer | _ => TkRegular end))
| pt_simple cs c lead id args lead1 id1 orig tn deps rl ri l' i' :
    qualify env ns lead id = COk (lead1, id1) -> path_name lead1 id1 = Some orig ->
    validate_ident_ok_for_cxx (tc_lexes env) (tc_reserved env) (qn_item orig) = VOk ->
    tc_blocked env (to_cpp_name orig) = false ->
    resolves env orig lead1 id1 args tn deps rl ri [] -> substituted tn rl ri [] = TPath l' i' [] ->
    plain_to cs c lead id args cs (Ann (TPath l' i' []) deps [] TkRegular)
| pt_concrete cs c lead id args lead1 id1 orig tn deps rl ri ra l' i' q def cs' n made :
    qualify env ns lead id = COk (lead1, id1) -> path_name lead1 id1 = Some orig ->
    validate_ident_ok_for_cxx (tc_lexes env) (tc_reserved env) (qn_item orig) = VOk ->
    tc_blocked env (to_cpp_name orig) = false ->
    resolves env orig lead1 id1 args tn deps rl ri ra -> ra <> [] -> substituted tn rl ri ra = TPath l' i' ra ->
    cxx_generic_behavior tn = GNot -> mentions_param c ra = false -> path_name l' i' = Some q ->
    qmem q (tc_ignored env) = false -> type_to_cpp (tc_names env) (TPath l' i' ra) = COk def ->
    get_templated_typename cs def = (cs', n, made) ->
    plain_to cs c lead id args cs'
      (Ann (to_type_path n) (qinsert n deps) (if made then [(n, def, TPath l' i' ra)] else []) TkRegular)
| pt_generic cs c lead id args lead1 id1 orig tn deps rl ri ra l' i' cs' la d x k :
    qualify env ns lead id = COk (lead1, id1) -> path_name lead1 id1 = Some orig ->
    validate_ident_ok_for_cxx (tc_lexes env) (tc_reserved env) (qn_item orig) = VOk ->
    tc_blocked env (to_cpp_name orig) = false ->
    resolves env orig lead1 id1 args tn deps rl ri ra -> ra <> [] -> substituted tn rl ri ra = TPath l' i' ra ->
    cxx_generic_behavior tn <> GNot -> args_to cs ra cs' la d x ->
    confirm_payload env (cxx_generic_behavior tn) la = OOk k ->
    plain_to cs c lead id args cs' (Ann (TPath l' i' la) (deps ++ d) [] k)
with args_to : concretes -> list ty -> concretes -> list ty -> list qname -> list concrete_api -> Prop :=
| at_nil cs : args_to cs [] cs [] [] []
| at_value cs s r cs' l d x : args_to cs r cs' l d x -> args_to cs (TNonType s :: r) cs' (TNonType s :: l) d x
| at_type cs a r cs1 i cs' l d x : (forall s, a <> TNonType s) -> conv_to cs WithinContainer a cs1 i ->
    args_to cs1 r cs' l d x ->
    args_to cs (a :: r) cs' (ann_ty i :: l) (ann_deps i ++ d) (ann_extra i ++ x).

Scheme conv_to_mut := Induction for conv_to Sort Prop
  with plain_to_mut := Induction for plain_to Sort Prop
  with args_to_mut := Induction for args_to Sort Prop.
Combined Scheme conv_mutind from conv_to_mut, plain_to_mut, args_to_mut.
End Rel.

Section Sound.
Variable env : tc_env.
Variable ns : list string.
Variable rec : concretes -> tc_ctx -> ty -> concretes * out annotated.
Hypothesis Hrec : forall cs c t cs' a, rec cs c t = (cs', OOk a) -> conv_to env ns cs c t cs' a.

Lemma convert_args_rel args : forall cs cs' l d x,
  convert_args rec cs args = (cs', OOk (l, d, x)) -> args_to env ns cs args cs' l d x.
Proof.
  induction args as [|a r IH]; intros cs cs' l d x H.
  - cbn in H. injection H as <- <- <- <-. constructor.
  - destruct a as [ld id ar|m lt t|m t|t n|s|s].
    6: { cbn in H. apply tbind_ok in H as (cs1 & [[l1 d1] x1] & H1 & H2). injection H2 as <- <- <- <-.
         constructor. apply IH. exact H1. }
    all: cbn in H; apply tbind_ok in H as (cs1 & i & H1 & H2);
      apply tbind_ok in H2 as (cs2 & [[l1 d1] x1] & H2 & H3); injection H3 as <- <- <- <-;
      econstructor; [congruence | apply Hrec; exact H1 | apply IH; exact H2].
Qed.

Lemma substituted_path tn lead id args : exists l i, substituted tn lead id args = TPath l i args.
Proof.
  unfold substituted. destruct (kt_get tn) as [td|]; [unfold td_path; eauto|].
  destruct (root_to_output lead id); eauto.
Qed.

Lemma convert_resolved_rel cs c lead id args lead1 id1 orig tn deps rl ri ra cs' a :
  qualify env ns lead id = COk (lead1, id1) -> path_name lead1 id1 = Some orig ->
  validate_ident_ok_for_cxx (tc_lexes env) (tc_reserved env) (qn_item orig) = VOk ->
  tc_blocked env (to_cpp_name orig) = false ->
  resolves env orig lead1 id1 args tn deps rl ri ra ->
  convert_resolved env rec cs c tn deps rl ri ra = (cs', OOk a) -> plain_to env ns cs c lead id args cs' a.
Proof.
  intros Hq Hn Hv Hb Hr H. unfold convert_resolved in H. fold (substituted tn rl ri ra) in H.
  destruct (substituted_path tn rl ri ra) as (l' & i' & E). rewrite E in H.
  destruct ra as [|a0 ra].
  - injection H as <- <-. eapply pt_simple; eauto.
  - destruct (cxx_generic_behavior tn) eqn:G.
    + destruct (mentions_param c (a0 :: ra)) eqn:MP; [discriminate|].
      destruct (path_name l' i') as [q|] eqn:PN; [|discriminate].
      destruct (qmem q (tc_ignored env)) eqn:QI; [discriminate|].
      destruct (type_to_cpp (tc_names env) (TPath l' i' (a0 :: ra))) as [def|e|] eqn:TC; try discriminate.
      destruct (get_templated_typename cs def) as [[cs1 n] made] eqn:GT.
      injection H as <- <-. eapply pt_concrete; eauto. discriminate.
    + apply tbind_ok in H as (cs1 & [[l d] x] & H1 & H2). apply convert_args_rel in H1.
      destruct (confirm_payload env GCppPtr l) as [k| | |] eqn:CP; try discriminate. injection H2 as <- <-.
      eapply pt_generic; eauto; try discriminate; rewrite G; [discriminate|exact CP].
    + apply tbind_ok in H as (cs1 & [[l d] x] & H1 & H2). apply convert_args_rel in H1.
      destruct (confirm_payload env GCppVector l) as [k| | |] eqn:CP; try discriminate. injection H2 as <- <-.
      eapply pt_generic; eauto; try discriminate; rewrite G; [discriminate|exact CP].
    + apply tbind_ok in H as (cs1 & [[l d] x] & H1 & H2). apply convert_args_rel in H1.
      destruct (confirm_payload env GRust l) as [k| | |] eqn:CP; try discriminate. injection H2 as <- <-.
      eapply pt_generic; eauto; try discriminate; rewrite G; [discriminate|exact CP].
Qed.

Lemma convert_plain_rel cs c lead id args cs' a :
  convert_plain_path env ns rec cs c lead id args = (cs', OOk a) -> plain_to env ns cs c lead id args cs' a.
Proof.
  unfold convert_plain_path. intros H.
  destruct (qualify env ns lead id) as [[lead1 id1]|e|] eqn:Hq; try discriminate.
  destruct (path_name lead1 id1) as [orig|] eqn:Hn; [|discriminate].
  destruct (validate_ident_ok_for_cxx _ _ _) eqn:Hv; try discriminate.
  destruct (tc_blocked env (to_cpp_name orig)) eqn:Hb; [discriminate|].
  destruct (resolve_typedef (tc_typedefs env) orig) as [[t|]|n| | |] eqn:Hr; try discriminate.
  - destruct t as [rl ri ra|m lt t|m t|t n|s|s];
      [| injection H as <- <-;
         match goal with |- plain_to _ _ _ _ _ _ _ _ (Ann ?o _ _ _) =>
           refine (pt_other env ns cs c lead id args lead1 id1 orig o Hq Hn Hv Hb Hr _) end; congruence .. ].
    destruct (path_name rl ri) as [q|] eqn:Hp; [|discriminate].
    eapply convert_resolved_rel; eauto. eapply rs_alias; eauto.
  - eapply convert_resolved_rel; eauto. apply rs_same. exact Hr.
Qed.

Lemma convert_actual_rel cs c lead id args cs' b :
  convert_actual_path env ns rec cs c lead id args = (cs', OOk b) ->
  exists a, plain_to env ns cs c lead id args cs' a /\ actual env c a b.
Proof.
  unfold convert_actual_path. intros H. apply tbind_ok in H as (cs1 & a & H1 & H2).
  apply convert_plain_rel in H1. exists a.
  destruct (ann_ty a) as [nl ni na|m lt t|m t|t n|s|s] eqn:T.
  2-6: injection H2 as <- <-; split; [exact H1 | apply ac_other; congruence].
  destruct (path_name nl ni) as [q|] eqn:Hn; [|discriminate].
  destruct (negb (allow_forward c) && qmem q (tc_forward env)) eqn:F; [discriminate|].
  assert (F' : allow_forward c = true \/ ~ In q (tc_forward env)).
  { destruct (allow_forward c); [left; reflexivity|]. right. cbn in F. apply qmem_nIn. exact F. }
  destruct (should_dereference_in_cpp q) eqn:D; injection H2 as <- <-; (split; [exact H1|]).
  - eapply ac_str; eauto.
  - eapply ac_path; eauto.
Qed.

Lemma convert_step_rel cs c t cs' a :
  convert_step env ns rec cs c t = (cs', OOk a) -> conv_to env ns cs c t cs' a.
Proof.
  destruct t as [lead id args|m lt e|m e|e n|s|s]; cbn [convert_step]; intros H.
  - unfold convert_type_path in H.
    destruct (unwrap_marker unused_marker lead id args) as [t|] eqn:U1.
    { eapply ct_marker; [left; exact U1 | apply Hrec; exact H]. }
    destruct (unwrap_marker opaque_marker lead id args) as [t|] eqn:U2.
    { eapply ct_marker; [right; exact U2 | apply Hrec; exact H]. }
    destruct (unwrap_reference false lead id args) as [[m e]|] eqn:U3.
    { apply tbind_ok in H as (cs1 & i & H1 & H2). injection H2 as <- <-. eapply ct_lref; eauto. }
    destruct (unwrap_reference true lead id args) as [[m e]|] eqn:U4.
    { destruct (ensure_pointee e) eqn:EP; [discriminate|].
      apply tbind_ok in H as (cs1 & i & H1 & H2). injection H2 as <- <-. eapply ct_rref; eauto. }
    apply convert_actual_rel in H as (a' & H1 & H2). eapply ct_path; eauto.
  - apply tbind_ok in H as (cs1 & i & H1 & H2). injection H2 as <- <-. apply ct_ref. auto.
  - destruct (ensure_pointee e) eqn:EP; [discriminate|].
    apply tbind_ok in H as (cs1 & i & H1 & H2). injection H2 as <- <-. apply ct_ptr; auto.
  - apply tbind_ok in H as (cs1 & i & H1 & H2). injection H2 as <- <-. apply ct_array. auto.
  - discriminate.
  - discriminate.
Qed.
End Sound.

Theorem convert_type_rel fuel env ns cs c t cs' a :
  convert_type fuel env ns cs c t = (cs', OOk a) -> conv_to env ns cs c t cs' a.
Proof.
  revert cs c t cs' a. induction fuel as [|k IH]; intros cs c t cs' a H; [discriminate|].
  cbn [convert_type] in H. eapply convert_step_rel; eauto.
Qed.
