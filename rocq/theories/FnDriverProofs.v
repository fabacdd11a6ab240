(** Facts about FnDriverModel: lists collected from lists, and what the passes of function analysis add. *)
From Verif Require Import Base QNamesModel KnownTypesModel ApiModel TypesModel ConcreteNamesModel TypeConverterModel
  ByValueModel SynthNamesModel TrackersModel FnAnalysisModel FnAnalysisProofs SubclassGenModel FrontModel FrontProofs DepthFirstModel FnDriverModel.

Definition occurs (n : qname) (P : list xapi) : nat := List.length (filter (fun x => qn_eqb (xname x) n) P).
Lemma occurs_app n P Q : occurs n (P ++ Q) = occurs n P + occurs n Q.
Proof. unfold occurs. rewrite filter_app, app_length. reflexivity. Qed.
Lemma occurs_pos n P : In n (map xname P) <-> 1 <= occurs n P.
Proof.
  unfold occurs. split.
  - intros H. apply in_map_iff in H as (x & E & H).
    assert (I : In x (filter (fun x => qn_eqb (xname x) n) P)) by (apply filter_In; split; [exact H | rewrite E; apply qn_eqb_refl]).
    destruct (filter _ P); [destruct I | cbn; lia].
  - intros H. destruct (filter (fun x => qn_eqb (xname x) n) P) as [|x r] eqn:F; [cbn in H; lia|].
    assert (I : In x (x :: r)) by (left; reflexivity). rewrite <- F in I. apply filter_In in I as [I E]. apply qn_eqb_eq in E.
    rewrite <- E. apply in_map, I.
Qed.
Lemma occurs_zero n P : occurs n P = 0 -> ~ In n (map xname P).
Proof. intros H I. apply occurs_pos in I. lia. Qed.

Section Settle.
Variable cfg : acfg.
(** [v] is what collecting [P] leaves: each name once, an entry of [P] whose name is its own unchanged, a marker where
    names clash. *)
Record settles (P v : list xapi) : Prop := {
  se_nodup : NoDup (map xname v);
  se_names : forall n, In n (map xname v) <-> In n (map xname P);
  se_in : forall y, In y v -> In y P \/ exists n, y = xmarker cfg n /\ 2 <= occurs n P;
  se_keep : forall y, In y P -> occurs (xname y) P = 1 -> In y v }.

Lemma settles_nil : settles [] [].
Proof. constructor; cbn; [constructor | tauto | tauto | tauto]. Qed.
Lemma settles_one x : settles [x] [x].
Proof. constructor; cbn; [constructor; [intros [] | constructor] | tauto | tauto | tauto]. Qed.

Lemma xextend_in_strong l : forall v y, NoDup (map xname l) -> In y (xextend cfg v l) ->
  In y v \/ In y l \/ exists n, y = xmarker cfg n /\ In n (map xname v) /\ In n (map xname l).
Proof.
  induction l as [|x l IH]; intros v y ND H; cbn in H; [left; exact H|]. cbn in ND. inversion ND as [|? ? N1 ND1]; subst.
  apply IH in H; [|exact ND1]. destruct H as [H|[H|(n & E & H1 & H2)]].
  - apply xpush_in in H as [H|[H|(H & I)]]; [left; exact H | right; left; left; congruence|].
    right. right. exists (xname x). split; [exact H|]. split; [exact I | left; reflexivity].
  - right. left. right. exact H.
  - right. right. exists n. split; [exact E|]. split; [|right; exact H2]. apply xpush_names in H1 as [H1|H1]; [exact H1|].
    subst n. contradiction.
Qed.
Lemma settles_app P v Q w : settles P v -> settles Q w -> settles (P ++ Q) (xextend cfg v w).
Proof.
  intros A B. constructor.
  - apply xextend_nodup, (se_nodup _ _ A).
  - intros n. rewrite xextend_names, map_app, in_app_iff, (se_names _ _ A), (se_names _ _ B). tauto.
  - intros y H. apply xextend_in_strong in H; [|apply (se_nodup _ _ B)]. destruct H as [H|[H|(n & E & H1 & H2)]].
    + apply (se_in _ _ A) in H as [H|(n & E & H)]; [left; apply in_or_app; auto|]. right. exists n. split; [exact E|]. rewrite occurs_app. lia.
    + apply (se_in _ _ B) in H as [H|(n & E & H)]; [left; apply in_or_app; auto|]. right. exists n. split; [exact E|]. rewrite occurs_app. lia.
    + right. exists n. split; [exact E|]. apply (se_names _ _ A), occurs_pos in H1. apply (se_names _ _ B), occurs_pos in H2. rewrite occurs_app. lia.
  - intros y H O. rewrite occurs_app in O. apply in_app_or in H as [H|H]; assert (I : In (xname y) (map xname (P ++ Q))) by
      (apply in_map, in_or_app; auto).
    + pose proof (proj1 (occurs_pos _ _) (in_map xname _ _ H)) as O1.
      apply xextend_keeps; [apply (se_keep _ _ A); [exact H | lia]|]. rewrite (se_names _ _ B). apply occurs_zero. lia.
    + pose proof (proj1 (occurs_pos _ _) (in_map xname _ _ H)) as O1.
      assert (W : In y w) by (apply (se_keep _ _ B); [exact H | lia]). apply in_split in W as (w1 & w2 & ->).
      pose proof (se_nodup _ _ B) as ND. rewrite map_app in ND. cbn in ND. apply NoDup_remove in ND as [_ ND]. rewrite in_app_iff in ND.
      apply xextend_once; [rewrite (se_names _ _ A); apply occurs_zero; lia | tauto | tauto].
Qed.
Lemma settles_collect P v : settles P v -> settles P (xextend cfg [] v).
Proof. intros A. rewrite xextend_id; [exact A | apply (se_nodup _ _ A)]. Qed.
Lemma settles_list P : forall Q v, settles Q v -> settles (Q ++ P) (xextend cfg v P).
Proof.
  induction P as [|x P IH]; intros Q v A; cbn; [rewrite app_nil_r; exact A|].
  change (settles (Q ++ x :: P) (xextend cfg (xextend cfg v [x]) P)).
  replace (Q ++ x :: P) with ((Q ++ [x]) ++ P) by (rewrite <- app_assoc; reflexivity). apply IH.
  apply settles_app; [exact A | apply settles_one].
Qed.
Lemma settles_new P : settles P (xextend cfg [] P).
Proof. apply (settles_list P [] []), settles_nil. Qed.
(** An entry is there, or its name stands for several. *)
Lemma settled P v y : settles P v -> In y P -> In y v \/ 2 <= occurs (xname y) P.
Proof.
  intros A H. pose proof (proj1 (occurs_pos _ _) (in_map xname _ _ H)) as O.
  destruct (Nat.eq_dec (occurs (xname y) P) 1) as [E|E]; [left; apply (se_keep _ _ A); assumption | right; lia].
Qed.
End Settle.

(** ** The instantiations made so far are kept *)
Definition grows (st st' : fn_state) : Prop := incl (fs_extra st) (fs_extra st').
Definition Grows {A} (m : M A) : Prop := forall st, grows st (fst (m st)).
Lemma grows_refl st : grows st st. Proof. apply incl_refl. Qed.
Lemma grows_trans a b c : grows a b -> grows b c -> grows a c. Proof. apply incl_tran. Qed.
Lemma grows_ret {A} (a : A) : Grows (ret a). Proof. intros st. apply grows_refl. Qed.
Lemma grows_fail {A} e : Grows (@fail A e). Proof. intros st. apply grows_refl. Qed.
Lemma grows_panic {A} : Grows (@panic A). Proof. intros st. apply grows_refl. Qed.
Lemma grows_bind {A B} (m : M A) (f : A -> M B) : Grows m -> (forall a, Grows (f a)) -> Grows (bind m f).
Proof.
  intros H1 H2 st. unfold bind. specialize (H1 st). destruct (m st) as [s [a|e| |]]; cbn in *; try exact H1.
  eapply grows_trans; [exact H1 | apply H2].
Qed.
Lemma grows_catch {A} (m : M A) : Grows m -> Grows (catch m).
Proof. intros H st. unfold catch. specialize (H st). destruct (m st) as [s [a|e| |]]; exact H. Qed.
Lemma grows_option {A} (o : option A) : Grows (of_option o). Proof. destruct o; [apply grows_ret | apply grows_panic]. Qed.
Lemma grows_verdict v : Grows (of_verdict v). Proof. destruct v; [apply grows_ret | apply grows_fail | apply grows_panic]. Qed.
Lemma grows_boxed env ns t : Grows (convert_boxed_type env ns t).
Proof.
  intros st. unfold convert_boxed_type. destruct (convert_type _ _ _ _ _ _) as [cs [a|e| |]];
    intros x H; cbn in *; [apply in_or_app; left|..]; exact H.
Qed.
Lemma grows_overload ns t n : Grows (get_overload_name ns t n).
Proof. intros st. unfold get_overload_name. destruct (overload_step _ _). apply incl_refl. Qed.
Lemma grows_bridge ns t n : Grows (get_cxx_bridge_name ns t n).
Proof. intros st. unfold get_cxx_bridge_name. destruct (bridge_step _ _). apply incl_refl. Qed.
Create HintDb grows.
#[local] Hint Resolve grows_ret grows_fail grows_panic grows_option grows_verdict grows_boxed grows_overload grows_bridge : grows.
Ltac grow := repeat match goal with
  | |- forall _, _ => intro
  | |- Grows (bind _ _) => apply grows_bind
  | |- Grows (catch _) => apply grows_catch
  | |- Grows (match ?x with _ => _ end) => destruct x
  | |- Grows (let _ := _ in _) => cbv zeta
  | |- Grows _ => solve [auto with grows]
  end.
Lemma grows_this v t : Grows (this_details v t).
Proof. unfold this_details. grow. Qed.
#[local] Hint Resolve grows_this : grows.
Lemma grows_arg env ns v r m f s c n t : Grows (convert_fn_arg env ns v r m f s c n t).
Proof. unfold convert_fn_arg. grow. Qed.
#[local] Hint Resolve grows_arg : grows.
Lemma grows_return env ns s t : Grows (convert_return_type env ns s t).
Proof. unfold convert_return_type. grow. Qed.
Lemma grows_ideal env c i : Grows (ideal_rust_name env c i).
Proof. unfold ideal_rust_name, rust_keyword. grow. Qed.
Lemma grows_trait env s ns i q : Grows (trait_creation_details env s ns i q).
Proof. unfold trait_creation_details. grow. Qed.
#[local] Hint Resolve grows_return grows_ideal grows_trait : grows.
Lemma grows_kind env f ns p i b q r b2 : Grows (fn_kind_and_name env f ns p i b q r b2).
Proof. unfold fn_kind_and_name. grow. Qed.
Lemma grows_reanalyze env f ns i fo s c m ps : Grows (reanalyze env f ns i fo s c m ps).
Proof. unfold reanalyze. grow. Qed.
#[local] Hint Resolve grows_kind grows_reanalyze : grows.
Lemma grows_keep ig ps m : Grows m -> Grows (keep_going ig ps m).
Proof. intros H. unfold keep_going. apply grows_bind; [apply grows_catch, H | grow]. Qed.
#[local] Hint Resolve grows_keep : grows.
Lemma grows_receiver env f ns s k ps : Grows (fix_receiver env f ns s k ps).
Proof. unfold fix_receiver. grow. Qed.
Lemma grows_params env f ns s l : Grows (convert_params env f ns s l).
Proof. induction l as [|[n t] l IH]; cbn; grow. Qed.
#[local] Hint Resolve grows_receiver grows_params : grows.
Lemma grows_analyze env name f soph pre : Grows (analyze_foreign_fn env name f soph pre).
Proof. unfold analyze_foreign_fn, rust_keyword. grow. Qed.
#[local] Hint Resolve grows_analyze : grows.
Lemma grows_add env name f pv soph : Grows (analyze_and_add env name f pv soph).
Proof. unfold analyze_and_add. grow. Qed.
#[local] Hint Resolve grows_add : grows.
Lemma grows_items env f n sup m fa s sub ex : Grows (subclass_items env f n sup m fa s sub ex).
Proof. unfold subclass_items. grow. Qed.
#[local] Hint Resolve grows_items : grows.
Lemma grows_loop env f n sup m fa s subs : forall ex, Grows (subclass_loop env f n sup m fa s subs ex).
Proof. induction subs as [|sub subs IH]; intros ex; cbn [subclass_loop]; grow. Qed.
#[local] Hint Resolve grows_loop : grows.
Lemma grows_and_subclasses env apis n f ex : Grows (analyze_foreign_fn_and_subclasses env apis n f ex).
Proof. unfold analyze_foreign_fn_and_subclasses. grow. Qed.
#[local] Hint Resolve grows_and_subclasses : grows.
Lemma grows_ctors_for env f fa sup subs : Grows (ctors_for env f fa sup subs).
Proof. induction subs as [|sub subs IH]; cbn [ctors_for]; grow. Qed.
#[local] Hint Resolve grows_ctors_for : grows.
Lemma grows_ctors env all l : Grows (subclass_constructors env all l).
Proof. induction l as [|a l IH]; cbn [subclass_constructors]; grow. Qed.
#[local] Hint Resolve grows_ctors : grows.
Lemma grows_fn_items d env subs n f ex : Grows (fn_items d env subs n f ex).
Proof. unfold fn_items. grow. Qed.
#[local] Hint Resolve grows_fn_items : grows.
Lemma grows_pass d env subs l : forall ex, Grows (fn_pass d env subs l ex).
Proof. induction l as [|x l IH]; intros ex; cbn [fn_pass]; grow. Qed.
Lemma grows_members d env subs ms : forall apis ex, Grows (add_members d env subs ms apis ex).
Proof. induction ms as [|[q m] ms IH]; intros apis ex; cbn [add_members]; grow. Qed.
Lemma grows_sub_ctors d env subs apis : Grows (sub_ctors d env subs apis).
Proof. unfold sub_ctors. grow. Qed.
Lemma grows_ok {A} (m : M A) st st' o : Grows m -> m st = (st', o) -> grows st st'.
Proof. intros H E. specialize (H st). rewrite E in H. exact H. Qed.
