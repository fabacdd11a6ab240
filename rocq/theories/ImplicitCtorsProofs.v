(** Facts about the analysis of special members. *)
From Coq Require Import Permutation.
From Verif Require Import Base QNamesModel KnownTypesModel ApiModel TypesModel TypesSpec ConcreteNamesModel TypeConverterModel ByValueModel ImplicitCtorsModel.

(** ** What was declared explicitly *)

Definition of_kind (q : qname) (k : ekind) (f : sm_fn) : bool :=
  qn_eqb (sf_for f) q && match contributes f with Some (CoKind k') => ekind_eqb k k' | _ => false end.
Definition single (f : sm_fn) : efound := if sf_deleted f then Deleted else UserDefined (sf_vis f).
Fixpoint found_of (o : option efound) (l : list sm_fn) : option efound :=
  match l with
  | [] => o
  | f :: r => found_of (Some (match o with None => single f | Some _ => Multiple end)) r
  end.

Lemma ekind_eqb_eq a b : ekind_eqb a b = true <-> a = b.
Proof. destruct a, b; cbn; split; intros; congruence. Qed.
Lemma ekind_eqb_refl a : ekind_eqb a a = true. Proof. now apply ekind_eqb_eq. Qed.

Lemma eget_eset q k e m q' k' : eget q' k' (eset q k e m) = if qn_eqb q' q && ekind_eqb k' k then Some e else eget q' k' m.
Proof.
  induction m as [|[[q1 k1] e1] r IH]; cbn [eset eget]; auto.
  destruct (qn_eqb q q1 && ekind_eqb k k1) eqn:E; cbn [eget].
  - apply andb_true_iff in E. destruct E as [E1 E2]. apply qn_eqb_eq in E1. apply ekind_eqb_eq in E2. subst.
    destruct (qn_eqb q' q1 && ekind_eqb k' k1); auto.
  - rewrite IH. destruct (qn_eqb q' q1 && ekind_eqb k' k1) eqn:E3; auto.
    apply andb_true_iff in E3. destruct E3 as [E1 E2]. apply qn_eqb_eq in E1. apply ekind_eqb_eq in E2. subst.
    destruct (qn_eqb q1 q && ekind_eqb k1 k) eqn:E4; auto.
    apply andb_true_iff in E4. destruct E4 as [E1 E2]. apply qn_eqb_eq in E1. apply ekind_eqb_eq in E2. subst.
    rewrite qn_eqb_refl, ekind_eqb_refl in E. discriminate.
Qed.

Lemma eget_In q k m e : eget q k m = Some e -> In ((q, k), e) m.
Proof.
  induction m as [|[[q1 k1] e1] r IH]; cbn; [discriminate|].
  destruct (qn_eqb q q1 && ekind_eqb k k1) eqn:E; intros H.
  - apply andb_true_iff in E. destruct E as [E1 E2]. apply qn_eqb_eq in E1. apply ekind_eqb_eq in E2. left. congruence.
  - right. auto.
Qed.

Lemma eget_merge q k f m q' k' :
  eget q' k' (merge_fun q k f m) =
  if qn_eqb q' q && ekind_eqb k' k then Some (match eget q k m with None => single f | Some _ => Multiple end) else eget q' k' m.
Proof. unfold merge_fun, single. destruct (eget q k m) as [e|]; rewrite eget_eset; reflexivity. Qed.

Lemma qn_eqb_sym a b : qn_eqb a b = qn_eqb b a.
Proof.
  destruct (qn_eqb a b) eqn:E; symmetry.
  - apply qn_eqb_eq in E. subst. apply qn_eqb_refl.
  - apply qn_eqb_neq in E. apply qn_eqb_neq. congruence.
Qed.

Lemma fei_eget : forall fns m u m' u' q k, find_explicit_items fns m u = Some (m', u') ->
  eget q k m' = found_of (eget q k m) (filter (of_kind q k) fns).
Proof.
  induction fns as [|f r IH]; cbn [find_explicit_items filter]; intros m u m' u' q k H.
  - injection H as <- <-. reflexivity.
  - destruct (contributes f) as [[k0| |]|] eqn:C; [| | |discriminate]; rewrite (IH _ _ _ _ _ _ H).
    + rewrite eget_merge. unfold of_kind at 2. rewrite C, (qn_eqb_sym (sf_for f) q).
      destruct (qn_eqb q (sf_for f) && ekind_eqb k k0) eqn:E; auto.
      apply andb_true_iff in E. destruct E as [E1 E2]. apply qn_eqb_eq in E1. apply ekind_eqb_eq in E2. subst. reflexivity.
    + unfold of_kind at 2. now rewrite C, andb_false_r.
    + unfold of_kind at 2. now rewrite C, andb_false_r.
Qed.

Lemma fei_unknown : forall fns m u m' u' q, find_explicit_items fns m u = Some (m', u') ->
  (In q u' <-> In q u \/ exists f, In f fns /\ sf_for f = q /\ contributes f = Some CoUnknown).
Proof.
  induction fns as [|f r IH]; cbn [find_explicit_items]; intros m u m' u' q H.
  - injection H as <- <-. split; [auto|]. intros [H|(f & [] & _)]; auto.
  - destruct (contributes f) as [[k0| |]|] eqn:C; [| | |discriminate]; rewrite (IH _ _ _ _ q H).
    + split; intros [H0|(g & G & G1 & G2)]; auto.
      * right. exists g. cbn. auto.
      * destruct G as [->|G]; [congruence|]. right. now exists g.
    + rewrite qinsert_In. split.
      * intros [[->|H0]|(g & G & G1 & G2)]; auto.
        -- right. exists f. cbn. auto.
        -- right. exists g. cbn. auto.
      * intros [H0|(g & [->|G] & G1 & G2)]; auto.
        -- right. exists g. auto.
    + split; intros [H0|(g & G & G1 & G2)]; auto.
      * right. exists g. cbn. auto.
      * destruct G as [->|G]; [congruence|]. right. now exists g.
Qed.

Lemma found_of_some e l : found_of (Some e) l = Some (match l with [] => e | _ => Multiple end).
Proof.
  revert e. induction l as [|x r IH]; intros e; cbn [found_of]; auto. rewrite IH. now destruct r.
Qed.
Lemma found_of_none l : found_of None l = None -> l = [].
Proof. destruct l as [|x r]; auto. cbn. rewrite found_of_some. discriminate. Qed.
Lemma found_of_user l v : found_of None l = Some (UserDefined v) -> exists f, l = [f] /\ sf_deleted f = false /\ sf_vis f = v.
Proof.
  destruct l as [|x r]; [discriminate|]. cbn. rewrite found_of_some. destruct r as [|y r]; [|discriminate].
  unfold single. destruct (sf_deleted x) eqn:E; intros H; [discriminate|]. exists x. split; [auto|]. split; congruence.
Qed.
Lemma found_of_multiple l : found_of None l = Some Multiple -> (2 <= length l)%nat.
Proof.
  destruct l as [|x r]; [discriminate|]. cbn. rewrite found_of_some. destruct r as [|y r]; cbn; [|lia].
  unfold single. destruct (sf_deleted x); discriminate.
Qed.

(** ** Running the loop *)

Section Find.
Variables (ex : explicits) (unknown enums : list qname).
Let step := items_of ex unknown enums.

Definition considered_names (l : list ic_struct) : list qname := map ic_name (filter ic_considered l).

(** Every entry of the result was computed when exactly the considered structs before it were known. *)
Lemma find_all_step : forall structs all res pre,
  map fst all = considered_names pre -> find_all ex unknown enums structs all = Some res ->
  forall P : list (qname * items) -> Prop, P all ->
  (forall a s i p q, pre ++ structs = p ++ s :: q -> ic_considered s = true -> map fst a = considered_names p ->
     step a s = Some i -> qget (ic_name s) a = None -> P a -> P (a ++ [(ic_name s, i)])) ->
  P res.
Proof.
  induction structs as [|s r IH]; cbn [find_all]; intros all res pre N H P P0 PS.
  - injection H as <-. exact P0.
  - destruct (ic_considered s) eqn:C.
    + destruct (items_of ex unknown enums all s) as [i|] eqn:I; [|discriminate].
      destruct (qget (ic_name s) all) as [j|] eqn:Q; [discriminate|].
      apply (IH (all ++ [(ic_name s, i)]) res (pre ++ [s])); auto.
      * unfold considered_names. rewrite map_app, filter_app, map_app, N. cbn. rewrite C. reflexivity.
      * apply (PS all s i pre r); auto.
      * intros a s0 i0 p q E. rewrite <- app_assoc in E. apply (PS a s0 i0 p q E).
    + apply (IH all res (pre ++ [s])); auto.
      * unfold considered_names. rewrite filter_app, map_app, N. cbn. rewrite C. now rewrite app_nil_r.
      * intros a s0 i0 p q E. rewrite <- app_assoc in E. apply (PS a s0 i0 p q E).
Qed.

Lemma get_all_In all l m : get_all enums all l = Some m ->
  (forall q, In q l -> exists i, In i m /\ get_items_found enums all q = Some i) /\
  (forall i, In i m -> exists q, In q l /\ get_items_found enums all q = Some i).
Proof.
  revert m. induction l as [|q r IH]; intros m; cbn [get_all].
  - intros H. injection H as <-. split; intros x [].
  - destruct (get_items_found enums all q) as [i|] eqn:G; [|discriminate].
    destruct (get_all enums all r) as [m'|]; [|discriminate]. intros H. injection H as <-.
    destruct (IH m' eq_refl) as [A B]. split.
    + intros x [->|X]; [exists i; split; [now left|auto]|]. destruct (A x X) as (j & J & E). exists j. split; [now right|auto].
    + intros x [->|X]; [exists q; split; [now left|auto]|]. destruct (B x X) as (j & J & E). exists j. split; [now right|auto].
Qed.
Lemma get_all_none all l : get_all enums all l = None -> exists q, In q l /\ get_items_found enums all q = None.
Proof.
  induction l as [|q r IH]; cbn [get_all]; [discriminate|].
  destruct (get_items_found enums all q) as [i|] eqn:G; [|intros _; exists q; split; [now left|auto]].
  destruct (get_all enums all r) as [m'|]; [discriminate|]. intros _. destruct (IH eq_refl) as (x & X & Y).
  exists x. split; [now right|auto].
Qed.

Lemma fields_items_In all fs m : fields_items enums all fs = Some (Some m) ->
  (forall f, In f fs -> exists i, In i m /\ field_items enums all f = Some (Some i)).
Proof.
  revert m. induction fs as [|f r IH]; intros m; cbn [fields_items]; [intros _ x []|].
  destruct (field_items enums all f) as [[i|]|] eqn:F; destruct (fields_items enums all r) as [[m'|]|]; try discriminate.
  intros H. injection H as <-. intros x [->|X].
  - exists i. split; [now left|auto].
  - destruct (IH m' eq_refl x X) as (j & J & E). exists j. split; [now right|auto].
Qed.
Lemma fields_items_none all fs : fields_items enums all fs = Some None -> exists f, In f fs /\ field_items enums all f = Some None.
Proof.
  induction fs as [|f r IH]; cbn [fields_items]; [discriminate|].
  destruct (field_items enums all f) as [[i|]|] eqn:F; destruct (fields_items enums all r) as [[m'|]|]; try discriminate.
  - intros _. destruct (IH eq_refl) as (x & X & Y). exists x. split; [now right|auto].
  - intros _. exists f. split; [now left|auto].
  - intros _. exists f. split; [now left|auto].
Qed.

Lemma get_items_known all q i : In (q, i) all -> exists j, get_items_found enums all q = Some j.
Proof.
  intros H. unfold get_items_found. destruct (qmem q enums); [eauto|]. destruct (constructor_details q); [eauto|].
  destruct (qget q all) as [j|] eqn:E; [eauto|]. rewrite qget_None in E. exfalso. apply E. apply in_map_iff. exists (q, i). auto.
Qed.
End Find.
