(** C41: organising items by namespace loses and misplaces nothing. *)
From Coq Require Import Sorted NArith.
From Verif Require Import Base NsModel.
Open Scope string_scope.
Open Scope list_scope.

(** * The order of strings *)

Lemma ascii_lt_trans a b c :
  Ascii.compare a b = Lt -> Ascii.compare b c = Lt -> Ascii.compare a c = Lt.
Proof.
  unfold Ascii.compare. rewrite !N.compare_lt_iff. apply N.lt_trans.
Qed.

Lemma ascii_refl a : Ascii.compare a a = Eq.
Proof. unfold Ascii.compare. apply N.compare_refl. Qed.

Lemma str_refl s : String.compare s s = Eq.
Proof. induction s as [|a s IH]; [reflexivity|]. cbn. rewrite ascii_refl. exact IH. Qed.

Lemma str_lt_irrefl s : ~ str_lt s s.
Proof. unfold str_lt. rewrite str_refl. discriminate. Qed.

Lemma str_lt_trans a b c : str_lt a b -> str_lt b c -> str_lt a c.
Proof.
  unfold str_lt. revert b c; induction a as [|x a IH]; intros [|y b] [|z c]; cbn;
    try discriminate; try reflexivity.
  destruct (Ascii.compare x y) eqn:Exy; try discriminate.
  - apply Ascii.compare_eq_iff in Exy as ->.
    destruct (Ascii.compare y z) eqn:Eyz; try discriminate; [|reflexivity].
    apply IH.
  - intros _. destruct (Ascii.compare y z) eqn:Eyz; try discriminate.
    + apply Ascii.compare_eq_iff in Eyz as ->. rewrite Exy. reflexivity.
    + rewrite (ascii_lt_trans _ _ _ Exy Eyz). reflexivity.
Qed.

Lemma str_gt a b : String.compare a b = Gt -> str_lt b a.
Proof. intro H. unfold str_lt. rewrite String.compare_antisym, H. reflexivity. Qed.

Definition path_dec (p q : list string) : {p = q} + {p <> q} := list_eq_dec string_dec p q.

(** The items of one namespace, in their original order. *)
Definition of_namespace {T} (ns : T -> list string) (p : list string) (l : list T) : list T :=
  filter (fun a => if path_dec (ns a) p then true else false) l.

(** The module reached from [t] by the names of [p]. *)
Inductive module_at {T} : nstree T -> list string -> nstree T -> Prop :=
| ma_here t : module_at t [] t
| ma_in e cs x k p m :
    In (x, k) cs -> module_at k p m -> module_at (NsE e cs) (x :: p) m.

(** All items of a tree. *)
Fixpoint all_items {T} (t : nstree T) : list T :=
  let (e, cs) := t in
  e ++ (fix go (l : list (string * nstree T)) : list T :=
          match l with [] => [] | (_, k) :: l => all_items k ++ go l end) cs.

Lemma all_items_eq {T} e (cs : list (string * nstree T)) :
  all_items (NsE e cs) = e ++ flat_map (fun p => all_items (snd p)) cs.
Proof.
  cbn. f_equal. induction cs as [|[x k] cs IH]; cbn; [reflexivity|now rewrite IH].
Qed.

(** The modules inside every module come in increasing order of distinct names. *)
Inductive sorted_tree {T} : nstree T -> Prop :=
| st_node e cs :
    StronglySorted str_lt (map fst cs) ->
    (forall x k, In (x, k) cs -> sorted_tree k) ->
    sorted_tree (NsE e cs).

Lemma ns_is_empty_eq {T} e (cs : list (string * nstree T)) :
  ns_is_empty (NsE e cs) = true <-> e = [] /\ forall x k, In (x, k) cs -> ns_is_empty k = true.
Proof.
  cbn. rewrite andb_true_iff.
  split; intros [H1 H2]; (split; [destruct e; [reflexivity|discriminate] || (subst; reflexivity)|]).
  - clear H1. intros x k. induction cs as [|[y k'] cs IH]; [intros []|].
    apply andb_true_iff in H2 as [Hk Hr]. intros [E|I]; [congruence|auto].
  - clear H1. induction cs as [|[y k'] cs IH]; [reflexivity|].
    apply andb_true_iff. split; [apply (H2 y k'); now left|].
    apply IH. intros x k I. apply (H2 x k). now right.
Qed.

(** * Groups *)
Section Groups.
Variable T : Type.
Variable ns : T -> list string.

Fixpoint assoc (k : string) (m : list (string * list T)) : list T :=
  match m with
  | [] => []
  | (k', v) :: m => if string_dec k k' then v else assoc k m
  end.

Definition good (m : list (string * list T)) : Prop :=
  StronglySorted str_lt (map fst m) /\ forall k v, In (k, v) m -> v <> [].

Lemma group_push_keys k a (m : list (string * list T)) x :
  In x (map fst (group_push k a m)) -> x = k \/ In x (map fst m).
Proof.
  induction m as [|[k' v] m IH]; cbn; [intuition congruence|].
  destruct (String.compare k k'); cbn; intuition.
Qed.

Lemma group_push_good k a m : good m -> good (group_push k a m).
Proof.
  intros [S V]. split.
  - clear V. induction m as [|[k' v] m IH]; cbn; [repeat constructor|].
    inversion S as [|? ? S' F]; subst.
    destruct (String.compare k k') eqn:E; cbn.
    + constructor; assumption.
    + constructor; [exact S|]. constructor; [exact E|].
      eapply Forall_impl; [|exact F]. intros x Hx. exact (str_lt_trans _ _ _ E Hx).
    + constructor; [exact (IH S')|]. apply Forall_forall. intros x I.
      destruct (group_push_keys _ _ _ _ I) as [-> | I'].
      * exact (str_gt _ _ E).
      * rewrite Forall_forall in F. exact (F x I').
  - clear S. induction m as [|[k' v] m IH]; cbn.
    + intros ? ? [E|[]]. inversion E. discriminate.
    + destruct (String.compare k k'); intros x w; cbn.
      * intros [E|I]; [inversion E; now destruct v|]. apply (V x w). now right.
      * intros [E|I]; [inversion E; discriminate|]. exact (V x w I).
      * intros [E|I]; [apply (V x w); now left|].
        apply (IH (fun k v I => V k v (or_intror I)) x w I).
Qed.

Lemma assoc_none m k : ~ In k (map fst m) -> assoc k m = [].
Proof.
  induction m as [|[k' v] m IH]; cbn; [reflexivity|]. intro N.
  destruct (string_dec k k') as [->|]; [tauto|]. apply IH. tauto.
Qed.

Lemma assoc_push k a m x :
  good m -> assoc x (group_push k a m) = assoc x m ++ (if string_dec x k then [a] else []).
Proof.
  intros [S _]. induction m as [|[k' v] m IH]; cbn.
  { destruct (string_dec x k); reflexivity. }
  inversion S as [|? ? S' F]; subst. specialize (IH S').
  destruct (String.compare k k') eqn:E; cbn.
  - apply String.compare_eq_iff in E as ->.
    destruct (string_dec x k'); [reflexivity|now rewrite app_nil_r].
  - destruct (string_dec x k) as [->|]; [|now rewrite app_nil_r].
    destruct (string_dec k k') as [->|]; [now apply str_lt_irrefl in E|].
    rewrite assoc_none; [reflexivity|]. intro I. rewrite Forall_forall in F.
    apply (str_lt_irrefl k). exact (str_lt_trans _ _ _ E (F k I)).
  - destruct (string_dec x k') as [->|]; [|exact IH].
    destruct (string_dec k' k) as [->|]; [rewrite str_refl in E; discriminate|].
    now rewrite app_nil_r.
Qed.

Lemma good_in m k v : good m -> (In (k, v) m <-> assoc k m = v /\ v <> []).
Proof.
  intros [S V]. split.
  - intro I. split; [|exact (V k v I)]. clear V.
    induction m as [|[k' w] m IH]; [destruct I|]. cbn.
    inversion S as [|? ? S' F]; subst. destruct I as [E|I].
    + inversion E; subst. destruct (string_dec k k); congruence.
    + destruct (string_dec k k') as [->|]; [|exact (IH S' I)].
      rewrite Forall_forall in F. destruct (str_lt_irrefl k').
      apply F. apply in_map_iff. exists (k', v). auto.
  - intros [A N]. clear S V. induction m as [|[k' w] m IH]; cbn in *; [congruence|].
    destruct (string_dec k k') as [->|]; [left; congruence|right; auto].
Qed.

Definition key (d : nat) (k : string) (a : T) : bool :=
  match nth_error (ns a) d with Some k' => if string_dec k' k then true else false | None => false end.

Definition ends (d : nat) (a : T) : bool :=
  match nth_error (ns a) d with Some _ => false | None => true end.

Lemma place_all d apis e m :
  fold_left (place ns d) apis ([], []) = (e, m) ->
  good m /\ e = filter (ends d) apis /\ forall k, assoc k m = filter (key d k) apis.
Proof.
  revert e m; induction apis as [|a apis IH] using rev_ind; intros e m.
  - cbn. intro H; inversion H; subst. split; [split; [constructor|intros ? ? []]|].
    split; reflexivity.
  - rewrite fold_left_app. cbn. destruct (fold_left _ apis _) as [e' m'] eqn:F.
    destruct (IH _ _ eq_refl) as (G & E & A). unfold place. cbn [fst snd].
    rewrite filter_app. cbn [filter]. unfold ends at 2. 
    destruct (nth_error (ns a) d) as [k|] eqn:N; intro H; inversion H; subst.
    + split; [now apply group_push_good|]. split; [now rewrite app_nil_r|].
      intro x. rewrite (assoc_push _ _ _ _ G), A, filter_app. cbn [filter].
      unfold key at 3. rewrite N.
      destruct (string_dec x k) as [->|]; destruct (string_dec k _); try congruence; reflexivity.
    + split; [exact G|]. split; [reflexivity|]. intro x. rewrite A, filter_app. cbn [filter].
      unfold key at 3. rewrite N. now rewrite app_nil_r.
Qed.

Lemma place_perm d apis e m :
  fold_left (place ns d) apis ([], []) = (e, m) ->
  Permutation (e ++ flat_map snd m) apis.
Proof.
  revert e m; induction apis as [|a apis IH] using rev_ind; intros e m.
  - cbn. intro H; inversion H; subst. constructor.
  - rewrite fold_left_app. cbn. destruct (fold_left _ apis _) as [e' m'] eqn:F.
    specialize (IH _ _ eq_refl). unfold place. cbn [fst snd].
    assert (P : forall k (m : list (string * list T)),
               Permutation (flat_map snd (group_push k a m)) (a :: flat_map snd m)).
    { clear. intros k m. induction m as [|[k' v] m IHm]; cbn; [auto|].
      destruct (String.compare k k'); cbn.
      - rewrite <- app_assoc. cbn. symmetry. apply Permutation_middle.
      - auto.
      - rewrite IHm. symmetry. apply Permutation_middle. }
    destruct (nth_error (ns a) d) as [k|]; intro H; inversion H; subst.
    + rewrite P, <- Permutation_middle, IH. apply Permutation_cons_append.
    + rewrite <- app_assoc. cbn. rewrite <- Permutation_middle, IH.
      apply Permutation_cons_append.
Qed.

Lemma kids_spec {A B} (f : A -> option B) m l :
  kids f m = Some l -> Forall2 (fun p q => fst p = fst q /\ f (snd p) = Some (snd q)) m l.
Proof.
  revert l; induction m as [|[k v] m IH]; cbn; intros l H.
  - inversion H. constructor.
  - destruct (f v) eqn:F; [|discriminate]. destruct (kids f m) eqn:K; [|discriminate].
    inversion H; subst. constructor; [cbn; auto|]. now apply IH.
Qed.

Lemma kids_total {A B} (f : A -> option B) m :
  (forall k v, In (k, v) m -> exists t, f v = Some t) -> exists l, kids f m = Some l.
Proof.
  induction m as [|[k v] m IH]; cbn; intro H; [eauto|].
  destruct (H k v (or_introl eq_refl)) as [t E]. rewrite E.
  destruct IH as [l E']; [intros; eapply H; right; eauto|]. rewrite E'. eauto.
Qed.

Lemma f2_keys {A B} (R : A -> B -> Prop) (m : list (string * A)) l :
  Forall2 (fun p q => fst p = fst q /\ R (snd p) (snd q)) m l -> map fst m = map fst l.
Proof. induction 1 as [|x y m l [E _] _ IH]; cbn; congruence. Qed.

Lemma f2_in_l {A B} (R : A -> B -> Prop) m l x :
  Forall2 R m l -> In x m -> exists y, In y l /\ R x y.
Proof.
  induction 1 as [|a b m l H _ IH]; intros []; [subst; exists b; cbn; auto|].
  destruct IH as [y [I R']]; [assumption|]. exists y. cbn; auto.
Qed.

Lemma f2_in_r {A B} (R : A -> B -> Prop) m l y :
  Forall2 R m l -> In y l -> exists x, In x m /\ R x y.
Proof.
  induction 1 as [|a b m l H _ IH]; intros []; [subst; exists a; cbn; auto|].
  destruct IH as [x [I R']]; [assumption|]. exists x. cbn; auto.
Qed.

(** * The tree *)

(** What the tree made at depth [d] is. *)
Definition tree_for (d : nat) (apis : list T) (t : nstree T) : Prop :=
  (forall p m, module_at t p m ->
     ns_entries m = of_namespace (fun a => skipn d (ns a)) p apis /\
     (p <> [] -> exists a q, In a apis /\ skipn d (ns a) = p ++ q)) /\
  (forall a p q, In a apis -> skipn d (ns a) = p ++ q -> exists m, module_at t p m) /\
  sorted_tree t /\ Permutation (all_items t) apis.

Lemma skipn_nth {A} (l : list A) d :
  skipn d l = match nth_error l d with Some x => x :: skipn (S d) l | None => [] end.
Proof.
  revert d; induction l as [|a l IH]; intros [|d]; cbn; try reflexivity.
  rewrite (IH d). destruct (nth_error l d); reflexivity.
Qed.

Lemma filter_filter {A} (f g : A -> bool) l :
  filter f (filter g l) = filter (fun a => g a && f a) l.
Proof.
  induction l as [|a l IH]; cbn; [reflexivity|].
  destruct (g a); cbn; rewrite IH; reflexivity.
Qed.

Lemma sort_tree fuel d apis :
  (forall a, In a apis -> List.length (ns a) < d + S fuel) ->
  exists t, sort_by_inner_namespace ns (S fuel) d apis = Some t /\ tree_for d apis t.
Proof.
  revert d apis; induction fuel as [|fuel IH]; intros d apis H;
    cbn [sort_by_inner_namespace];
    destruct (fold_left (place ns d) apis ([], [])) as [e m] eqn:P;
    destruct (place_all _ _ _ _ P) as (G & E & A); pose proof (place_perm _ _ _ _ P) as Q.
  - (* nothing is deeper *)
    assert (M : m = []).
    { destruct m as [|[k v] m]; [reflexivity|exfalso].
      destruct (proj1 (good_in _ k v G) (or_introl eq_refl)) as [Av Nv].
      rewrite A in Av. destruct v as [|a v]; [congruence|].
      assert (I : In a (filter (key d k) apis)) by (rewrite Av; now left).
      apply filter_In in I as [I K]. unfold key in K.
      destruct (nth_error (ns a) d) eqn:N; [|discriminate].
      assert (L : d < List.length (ns a)) by (apply nth_error_Some; congruence).
      specialize (H a I). lia. }
    subst m. cbn [kids]. exists (NsE e []). split; [reflexivity|].
    assert (Z : forall a, In a apis -> skipn d (ns a) = []).
    { intros a I. rewrite skipn_nth. destruct (nth_error (ns a) d) eqn:N; [|reflexivity].
      assert (d < List.length (ns a)) by (apply nth_error_Some; congruence).
      specialize (H a I). lia. }
    split; [|split; [|split]].
    + intros p t Mt. inversion Mt; subst; [|match goal with I : In _ [] |- _ => destruct I end].
      split; [|congruence]. cbn. unfold of_namespace. apply filter_ext_in. intros a I.
      unfold ends. rewrite (Z a I). pose proof (Z a I) as W. rewrite skipn_nth in W.
      destruct (nth_error (ns a) d); [discriminate|]. destruct (path_dec [] []); congruence.
    + intros a p q I S. rewrite (Z a I) in S. destruct p; [|discriminate].
      eexists. constructor.
    + constructor; [constructor|intros ? ? []].
    + cbn in *. exact Q.
  - destruct (kids_total (sort_by_inner_namespace ns (S fuel) (S d)) m) as [l K].
    { intros k v I. destruct (proj1 (good_in _ k v G) I) as [Av _]. rewrite A in Av.
      destruct (IH (S d) v) as [t [Et _]]; [|eauto].
      intros a Ia. rewrite <- Av in Ia. apply filter_In in Ia as [Ia _].
      specialize (H a Ia). lia. }
    cbn [sort_by_inner_namespace] in K. rewrite K. exists (NsE e l). split; [reflexivity|].
    apply kids_spec in K.
    assert (KT : Forall2 (fun p q => fst p = fst q /\ tree_for (S d) (snd p) (snd q)) m l).
    { assert (HM : forall k v, In (k, v) m -> forall a, In a v -> In a apis).
      { intros k v I a Ia. destruct (proj1 (good_in _ k v G) I) as [Av _].
        rewrite A in Av. rewrite <- Av in Ia. now apply filter_In in Ia as [Ia _]. }
      clear -K H IH HM. induction K as [|[k v] [k' t] m l [E F] _ IHK]; constructor.
      - cbn [fst snd] in *. split; [exact E|].
        destruct (IH (S d) v) as [t' [Et Tt]].
        + intros a Ia. specialize (H a (HM k v (or_introl eq_refl) a Ia)). lia.
        + cbn [sort_by_inner_namespace] in Et. rewrite Et in F. inversion F; subst. exact Tt.
      - apply IHK. intros k0 v0 I. apply (HM k0 v0). now right. }
    clear K.
    split; [|split; [|split]].
    + intros p t Mt. inversion Mt as [|e' cs x k p' m' Ic Mk]; subst.
      { split; [|congruence]. cbn. unfold of_namespace. apply filter_ext. intro a. unfold ends.
        rewrite skipn_nth. destruct (nth_error (ns a) d); destruct (path_dec _ _);
          congruence. }
      destruct (f2_in_r _ _ _ _ KT Ic) as [[k0 v] [Im [E0 TF]]]. cbn [fst snd] in *. subst k0.
      destruct (proj1 (good_in _ x v G) Im) as [Av Nv]. rewrite A in Av.
      destruct TF as (T1 & _). destruct (T1 _ _ Mk) as [T2 T3].
      split.
      * rewrite T2. rewrite <- Av. unfold of_namespace. rewrite filter_filter.
        apply filter_ext. intro a. unfold key. rewrite (skipn_nth (ns a) d).
        destruct (nth_error (ns a) d) as [y|].
        -- destruct (string_dec y x) as [->|].
           ++ destruct (path_dec (skipn (S d) (ns a)) p'); destruct (path_dec (x :: _) _);
                cbn [andb]; congruence.
           ++ destruct (path_dec (y :: _) _); cbn [andb]; congruence.
        -- destruct (path_dec [] _); cbn [andb]; congruence.
      * intros _. destruct p' as [|y p'].
        -- destruct v as [|a v]; [congruence|]. exists a, (skipn (S d) (ns a)).
           assert (I : In a (filter (key d x) apis)) by (rewrite Av; now left).
           apply filter_In in I as [I Ka]. split; [exact I|]. rewrite skipn_nth.
           unfold key in Ka. destruct (nth_error (ns a) d) as [y|]; [|discriminate].
           destruct (string_dec y x); [subst; reflexivity|discriminate].
        -- destruct T3 as (a & q & Ia & S); [discriminate|]. exists a, q.
           rewrite <- Av in Ia. apply filter_In in Ia as [Ia Ka]. split; [exact Ia|].
           rewrite skipn_nth. unfold key in Ka.
           destruct (nth_error (ns a) d) as [z|]; [|discriminate].
           destruct (string_dec z x); [|discriminate]. subst. rewrite S. reflexivity.
    + intros a p q Ia S. destruct p as [|x p]; [eexists; constructor|].
      rewrite skipn_nth in S. destruct (nth_error (ns a) d) as [y|] eqn:N; [|discriminate].
      inversion S as [[E1 E2]]. subst y.
      assert (Im : In (x, filter (key d x) apis) m).
      { apply good_in; [exact G|]. split; [apply A|]. intro Z.
        assert (In a (filter (key d x) apis)).
        { apply filter_In. split; [exact Ia|]. unfold key. rewrite N.
          destruct (string_dec x x); congruence. }
        rewrite Z in *. contradiction. }
      destruct (f2_in_l _ _ _ _ KT Im) as [[x' k] [Ik [Ex TF]]]. cbn [fst snd] in *. subst x'.
      destruct TF as (_ & T2 & _). destruct (T2 a p q) as [mm Hm].
      * apply filter_In. split; [exact Ia|]. unfold key. rewrite N.
        destruct (string_dec x x); congruence.
      * exact E2.
      * exists mm. econstructor; eassumption.
    + constructor.
      * rewrite <- (f2_keys (tree_for (S d)) m l KT). apply G.
      * intros x k Ik. destruct (f2_in_r _ _ _ _ KT Ik) as [? [_ [_ TF]]]. apply TF.
    + rewrite all_items_eq. rewrite <- Q. apply Permutation_app_head.
      clear - KT. induction KT as [|p q m l [_ TF] _ IHk]; cbn; [constructor|].
      apply Permutation_app; [apply TF|exact IHk].
Qed.

End Groups.

Lemma deepest_le {T} (ns : T -> list string) apis a :
  In a apis -> List.length (ns a) <= deepest ns apis.
Proof.
  induction apis as [|b apis IH]; [intros []|]. unfold deepest in *.
  cbn [fold_right]. intros [->|I]; [lia|].
  specialize (IH I). lia.
Qed.

(** ** Theorems about the tree *)

(** Organising always gives a tree (it never runs out of fuel), and in it every
    module holds exactly the items of the namespace named by its path, in their
    original order. *)
Theorem c41_entries_are_the_namespace :
  forall (T : Type) (ns : T -> list string) (apis : list T),
  exists t, new_entries ns apis = Some t /\
    forall p m, module_at t p m -> ns_entries m = of_namespace ns p apis.
Proof.
  intros T ns apis.
  destruct (sort_tree T ns (deepest ns apis) 0 apis) as [t [E (H & _)]].
  { intros a I. pose proof (deepest_le ns apis a I). lia. }
  exists t. split; [exact E|]. intros p m M. apply (H p m M).
Qed.

(** Every item is placed exactly once. *)
Theorem c41_each_item_once :
  forall (T : Type) (ns : T -> list string) (apis : list T) t,
  new_entries ns apis = Some t -> Permutation (all_items t) apis.
Proof.
  intros T ns apis t E.
  destruct (sort_tree T ns (deepest ns apis) 0 apis) as [t' [E' (_ & _ & _ & H)]].
  { intros a I. pose proof (deepest_le ns apis a I). lia. }
  unfold new_entries in E. rewrite E' in E. inversion E; subst. exact H.
Qed.

(** A module exists for a path exactly when some item is in that namespace or in
    one nested inside it: no item lacks its module and no module is empty. *)
Theorem c41_modules :
  forall (T : Type) (ns : T -> list string) (apis : list T) t,
  new_entries ns apis = Some t ->
  forall p, p <> [] ->
  ((exists m, module_at t p m) <-> exists a q, In a apis /\ ns a = p ++ q).
Proof.
  intros T ns apis t E p Np.
  destruct (sort_tree T ns (deepest ns apis) 0 apis) as [t' [E' (H1 & H2 & _)]].
  { intros a I. pose proof (deepest_le ns apis a I). lia. }
  unfold new_entries in E. rewrite E' in E. inversion E; subst. split.
  - intros [m M]. apply (H1 p m M). exact Np.
  - intros (a & q & I & Q). exact (H2 a p q I Q).
Qed.

(** The modules within a module have distinct names, in increasing order, so a
    path leads to at most one module. *)
Theorem c41_one_module_per_path :
  forall (T : Type) (ns : T -> list string) (apis : list T) t,
  new_entries ns apis = Some t ->
  sorted_tree t /\
  forall p m m', module_at t p m -> module_at t p m' -> m = m'.
Proof.
  intros T ns apis t E.
  destruct (sort_tree T ns (deepest ns apis) 0 apis) as [t' [E' (_ & _ & H & _)]].
  { intros a I. pose proof (deepest_le ns apis a I). lia. }
  unfold new_entries in E. rewrite E' in E. inversion E; subst. split; [exact H|].
  intros p m m' M. revert m' H. clear - M. induction M as [t|e cs x k p m I M IH]; intros m' St M'.
  - inversion M'; reflexivity.
  - inversion M' as [|? ? ? k' ? ? I' Mk']; subst. inversion St as [? ? SS SK]; subst.
    assert (k = k').
    { clear - SS I I'. induction cs as [|[y z] cs IH]; [destruct I|].
      inversion SS as [|? ? S' F]; subst. rewrite Forall_forall in F.
      destruct I as [E|I], I' as [E'|I'].
      - congruence.
      - exfalso. inversion E; subst. apply (str_lt_irrefl x), F, in_map_iff.
        exists (x, k'). auto.
      - exfalso. inversion E'; subst. apply (str_lt_irrefl x), F, in_map_iff.
        exists (x, k). auto.
      - auto. }
    subst k'. apply IH; [exact (SK _ _ I)|exact Mk'].
Qed.

(** The tree counts as empty exactly when there is no item. *)
Theorem c41_is_empty :
  forall (T : Type) (ns : T -> list string) (apis : list T) t,
  new_entries ns apis = Some t -> (ns_is_empty t = true <-> apis = []).
Proof.
  intros T ns apis t E. pose proof (c41_each_item_once T ns apis t E) as P.
  assert (Z : forall t : nstree T, ns_is_empty t = true <-> all_items t = []).
  { clear. fix rec 1. intros [e cs]. rewrite ns_is_empty_eq, all_items_eq.
    assert (W : (forall x k, In (x, k) cs -> ns_is_empty k = true) <->
                flat_map (fun p => all_items (snd p)) cs = []).
    { induction cs as [|[y k'] cs IH]; [cbn; split; [reflexivity|intros _ ? ? []]|].
      cbn [flat_map snd]. specialize (rec k'). split.
      - intro H. rewrite (proj1 rec (H y k' (or_introl eq_refl))). cbn. apply IH.
        intros x k I. apply (H x k). now right.
      - intros H x k [Ek|I].
        + inversion Ek; subst. apply rec. now apply app_eq_nil in H as [H _].
        + apply app_eq_nil in H as [_ H]. apply (proj2 IH H x k I). }
    split.
    - intros [-> H]. cbn. now apply W.
    - intro H. apply app_eq_nil in H as [-> H]. split; [reflexivity|now apply W]. }
  rewrite Z. split; intro H.
  - rewrite H in P. now apply Permutation_nil in P.
  - subst apis. apply Permutation_sym, Permutation_nil in P. exact P.
Qed.

(** The items of the crate's own test, with their namespaces. *)
Example c41_case :
  exists t, new_entries snd
    [("C", []); ("E", ["G"]); ("F", ["D"]); ("L", ["D"; "K"]); ("A", []); ("H", ["G"])]
    = Some t /\
  t = NsE [("C", []); ("A", [])]
        [("D", NsE [("F", ["D"])] [("K", NsE [("L", ["D"; "K"])] [])]);
         ("G", NsE [("E", ["G"]); ("H", ["G"])] [])].
Proof. eexists. split; vm_compute; reflexivity. Qed.

(** * The modules written out *)
Section OutputSpec.
Variables Item Entry Ty Key : Type.
Notation output := (out Item Entry Ty Key).
Notation result := (rs_result Item Entry Ty Key).

(** The items of the module reached by the names of a path. *)
Inductive out_at : list output -> list string -> list output -> Prop :=
| oa_here o : out_at o [] o
| oa_in o x o1 p o2 : In (OMod x o1) o -> out_at o1 p o2 -> out_at o (x :: p) o2.

Definition items_of (o : list output) : list Item :=
  flat_map (fun i => match i with OItem i => [i] | _ => [] end) o.
Definition impls_of (o : list output) : list (Ty * list Entry) :=
  flat_map (fun i => match i with OImpl t es => [(t, es)] | _ => [] end) o.
Definition traits_of (o : list output) : list (Key * list Entry) :=
  flat_map (fun i => match i with OTrait t es => [(t, es)] | _ => [] end) o.
Definition mods_of (o : list output) : list string :=
  flat_map (fun i => match i with OMod x _ => [x] | _ => [] end) o.

Definition some_list {A} (o : option A) : list A :=
  match o with Some a => [a] | None => [] end.

(** [blocks eqb bs l]: [bs] gathers the pairs of [l] by key: one block for each
    key that occurs, holding its entries in their original order. *)
Definition blocks {K} (eqb : K -> K -> bool) (bs : list (K * list Entry))
  (l : list (K * Entry)) : Prop :=
  NoDup (map fst bs) /\
  forall k es, In (k, es) bs <->
    es = map snd (filter (fun p => eqb (fst p) k) l) /\ es <> [].

Lemma blocks_perm {K} (eqb : K -> K -> bool) bs bs' l :
  Permutation bs' bs -> blocks eqb bs l -> blocks eqb bs' l.
Proof.
  intros P [N H]. split.
  - eapply Permutation_NoDup; [|exact N]. apply Permutation_map. now symmetry.
  - intros k es. rewrite <- H. split; intro I; eapply Permutation_in; try exact I;
      [exact P|now symmetry].
Qed.

Fixpoint hm_get {K} (eqb : K -> K -> bool) (k : K) (m : list (K * list Entry)) : list Entry :=
  match m with [] => [] | (k', v) :: m => if eqb k k' then v else hm_get eqb k m end.

Lemma hm_push_blocks {K} (eqb : K -> K -> bool) (S : forall a b, eqb a b = true <-> a = b)
  k e m l : blocks eqb m l -> blocks eqb (hm_push eqb k e m) (l ++ [(k, e)]).
Proof.
  assert (R : forall a, eqb a a = true) by (intro; now apply S).
  assert (D : forall a b, a <> b -> eqb a b = false).
  { intros a b N. destruct (eqb a b) eqn:E; [apply S in E; congruence|reflexivity]. }
  assert (KS : forall m x, In x (map fst (hm_push eqb k e m)) -> x = k \/ In x (map fst m)).
  { clear. intros m x. induction m as [|[k' v] m IH]; cbn; [intuition congruence|].
    destruct (eqb k k'); cbn; intuition. }
  assert (ND : forall m : list (K * list Entry), NoDup (map fst m) -> NoDup (map fst (hm_push eqb k e m))).
  { clear -KS S. intro m. induction m as [|[k' v] m IH]; cbn; intro N.
    - constructor; [intros []|constructor].
    - destruct (eqb k k') eqn:E; cbn; [exact N|]. inversion N; subst.
      constructor; [|auto]. intro I. apply KS in I as [->|I]; [|contradiction].
      assert (eqb k k = true) by now apply S. congruence. }
  assert (IN : forall m x w, NoDup (map fst m) ->
    (In (x, w) (hm_push eqb k e m) <->
     (x = k /\ ((exists v, In (k, v) m /\ w = v ++ [e]) \/ (~ In k (map fst m) /\ w = [e])))
     \/ (x <> k /\ In (x, w) m))).
  { clear -S R D. intros m x w. induction m as [|[k' v] m IH]; cbn; intro N.
    - split.
      + intros [E|[]]; inversion E; subst. left. split; [reflexivity|right; split; [intros []|reflexivity]].
      + intros [[-> [[v [[] _]]|[_ ->]]]|[_ []]]. now left.
    - inversion N as [|? ? N1 N2]; subst. destruct (eqb k k') eqn:E.
      + apply S in E as <-. cbn. split.
        * intros [Ep|I].
          -- inversion Ep; subst. left. split; [reflexivity|]. left. exists v. auto.
          -- right. split; [|auto]. intros ->. apply N1, in_map_iff. now exists (k, w).
        * intros [[-> [[v' [[Ep|I] ->]]|[X _]]]|[Nx [Ep|I]]].
          -- inversion Ep; subst. now left.
          -- exfalso. apply N1, in_map_iff. now exists (k, v').
          -- exfalso; tauto.
          -- inversion Ep; congruence.
          -- auto.
      + assert (k <> k') by (intros ->; rewrite R in E; discriminate). cbn.
        rewrite (IH N2). split.
        * intros [Ep|[[-> [[v' [I ->]]|[X ->]]]|[Nx I]]].
          -- inversion Ep; subst. right. split; [congruence|auto].
          -- left. split; [reflexivity|]. left. exists v'. auto.
          -- left. split; [reflexivity|]. right. split; [intros [?|?]; [congruence|tauto]|reflexivity].
          -- right. auto.
        * intros [[-> [[v' [[Ep|I] ->]]|[X ->]]]|[Nx [Ep|I]]].
          -- inversion Ep; congruence.
          -- right; left. split; [reflexivity|]. left. eauto.
          -- right; left. split; [reflexivity|]. right. split; [tauto|reflexivity].
          -- auto.
          -- auto. }
  intros [N H]. split; [now apply ND|]. intros x w. rewrite (IN m x w N).
  rewrite filter_app, map_app. cbn [filter fst].
  destruct (eqb k x) eqn:E.
  - apply S in E as <-. cbn [map snd].
    set (sel := map snd (filter (fun p => eqb (fst p) k) l)) in *. split.
    + intros [[_ [[v [I ->]]|[X ->]]]|[Nx _]]; [| |congruence].
      * apply H in I as [-> _]. fold sel. split; [reflexivity|now destruct sel].
      * split; [|discriminate]. destruct sel as [|y sel'] eqn:Es; [reflexivity|exfalso].
        apply X, in_map_iff. exists (k, sel). split; [reflexivity|].
        apply H. fold sel. rewrite Es. split; [reflexivity|discriminate].
    + intros [-> _]. left. split; [reflexivity|]. destruct sel as [|y sel'] eqn:Es.
      * right. split; [|reflexivity]. intro I. apply in_map_iff in I as [[k0 v] [E0 I]].
        cbn in E0. subst k0. apply H in I as [-> Nv]. apply Nv. exact Es.
      * left. exists sel. split; [|now rewrite Es]. apply H. fold sel. rewrite Es.
        split; [reflexivity|discriminate].
  - cbn. rewrite app_nil_r.
    assert (x <> k) by (intros ->; rewrite R in E; discriminate).
    rewrite <- H. split; [intros [[? _]|[_ I]]; [congruence|exact I]|auto].
Qed.

Lemma hm_all_blocks {K} (eqb : K -> K -> bool) (S : forall a b, eqb a b = true <-> a = b) l :
  blocks eqb (hm_all eqb l) (flat_map some_list l).
Proof.
  unfold hm_all. induction l as [|o l IH] using rev_ind.
  - cbn. split; [constructor|]. intros k es. split; [intros []|intros [-> N]; now destruct N].
  - rewrite fold_left_app, flat_map_app. cbn [fold_left flat_map].
    destruct o as [[k e]|]; cbn [some_list].
    + rewrite app_nil_r. now apply hm_push_blocks.
    + now rewrite app_nil_r.
Qed.

Variable ty_eqb : Ty -> Ty -> bool.
Variable key_eqb : Key -> Key -> bool.
Variable order_ty : list string -> list (Ty * list Entry) -> list (Ty * list Entry).
Variable order_key : list string -> list (Key * list Entry) -> list (Key * list Entry).

Notation write := (append_child_output_namespace ty_eqb key_eqb order_ty order_key).

Definition child_mods (path : list string) (cs : list (string * nstree (qname * result)))
  : list output :=
  flat_map (fun p => if ns_is_empty (snd p) then []
                     else [OMod (fst p) (write (path ++ [fst p]) (snd p))]) cs.

Lemma write_eq path es cs :
  write path (NsE es cs) =
  flat_map (fun e => map OItem (rr_out (snd e))) es ++
  map (fun p => OImpl (fst p) (snd p))
    (order_ty path (hm_all ty_eqb (map (fun e => rr_impl (snd e)) es))) ++
  map (fun p => OTrait (fst p) (snd p))
    (order_key path (hm_all key_eqb (map (fun e => rr_trait (snd e)) es))) ++
  child_mods path cs.
Proof.
  cbn [append_child_output_namespace]. do 3 f_equal. unfold child_mods.
  induction cs as [|[n k] cs IH]; cbn [flat_map fst snd]; [reflexivity|]. now rewrite IH.
Qed.

Definition full (t : nstree (qname * result)) : Prop :=
  forall p m, p <> [] -> module_at t p m -> ns_is_empty m = false.

Lemma full_child e cs x k : full (NsE e cs) -> In (x, k) cs -> ns_is_empty k = false /\ full k.
Proof.
  intros F I. split.
  - apply (F [x] k); [discriminate|]. econstructor; [exact I|constructor].
  - intros p m Np M. apply (F (x :: p) m); [discriminate|]. econstructor; eauto.
Qed.

Lemma write_mods path es cs x o :
  In (OMod x o) (write path (NsE es cs)) <-> In (OMod x o) (child_mods path cs).
Proof.
  rewrite write_eq, !in_app_iff. split; [|auto].
  intros [I|[I|[I|I]]]; [| | |exact I]; exfalso.
  - apply in_flat_map in I as [? [_ I]]. apply in_map_iff in I as [? [E _]]. discriminate.
  - apply in_map_iff in I as [? [E _]]. discriminate.
  - apply in_map_iff in I as [? [E _]]. discriminate.
Qed.

Lemma out_at_write t path p o :
  full t -> (out_at (write path t) p o <-> exists m, module_at t p m /\ o = write (path ++ p) m).
Proof.
  intro F. split.
  - revert t path F. induction p as [|x p IH]; intros t path F H.
    + inversion H; subst. exists t. rewrite app_nil_r. split; [constructor|reflexivity].
    + inversion H as [|? ? o1 ? ? I H']; subst. destruct t as [es cs].
      apply write_mods in I. unfold child_mods in I. apply in_flat_map in I as [[y k] [Ik I]].
      cbn [fst snd] in I. destruct (full_child _ _ _ _ F Ik) as [Ek Fk]. rewrite Ek in I.
      destruct I as [I|[]]. inversion I; subst.
      destruct (IH _ _ Fk H') as [m [M ->]]. exists m. split; [econstructor; eauto|].
      now rewrite <- app_assoc.
  - intros [m [M ->]]. revert path. induction M as [t|es cs x k p m I M IH]; intro path.
    + rewrite app_nil_r. constructor.
    + destruct (full_child _ _ _ _ F I) as [Ek Fk].
      apply oa_in with (o1 := write (path ++ [x]) k).
      * apply write_mods. unfold child_mods. apply in_flat_map. exists (x, k).
        split; [exact I|]. cbn [fst snd]. rewrite Ek. now left.
      * change (x :: p) with ([x] ++ p). rewrite app_assoc. apply IH. exact Fk.
Qed.

Lemma fm_nil {A B} (f : A -> list B) l : (forall a, In a l -> f a = []) -> flat_map f l = [].
Proof.
  induction l as [|a l IH]; cbn; intro H; [reflexivity|].
  rewrite (H a), IH; auto.
Qed.

Lemma fm_map {A B C} (f : B -> list C) (g : A -> B) l :
  flat_map f (map g l) = flat_map (fun a => f (g a)) l.
Proof. induction l as [|a l IH]; cbn; [reflexivity|now rewrite IH]. Qed.

Lemma fm_single {A B} (g : A -> B) l : flat_map (fun a => [g a]) l = map g l.
Proof. induction l as [|a l IH]; cbn; [reflexivity|now rewrite IH]. Qed.

Lemma fm_fm {A B C} (f : B -> list C) (g : A -> list B) l :
  flat_map f (flat_map g l) = flat_map (fun a => flat_map f (g a)) l.
Proof. induction l as [|a l IH]; cbn; [reflexivity|now rewrite flat_map_app, IH]. Qed.

Ltac parts :=
  repeat rewrite flat_map_app; repeat rewrite fm_fm; repeat rewrite fm_map;
  cbn [fst snd].

Lemma write_items path es cs :
  items_of (write path (NsE es cs)) = flat_map (fun e => rr_out (snd e)) es.
Proof.
  rewrite write_eq. unfold items_of, child_mods. parts.
  rewrite (fm_nil _ (order_ty path _)) by reflexivity.
  rewrite (fm_nil _ (order_key path _)) by reflexivity.
  rewrite (fm_nil _ cs) by (intros [x k] _; cbn; now destruct (ns_is_empty k)).
  rewrite !app_nil_r. apply flat_map_ext. intro e. rewrite fm_map, fm_single. apply map_id.
Qed.

Lemma write_impls path es cs :
  impls_of (write path (NsE es cs)) =
  order_ty path (hm_all ty_eqb (map (fun e => rr_impl (snd e)) es)).
Proof.
  rewrite write_eq. unfold impls_of, child_mods. parts.
  rewrite (fm_nil _ es) by (intros e _; rewrite fm_map; now apply fm_nil).
  rewrite (fm_nil _ (order_key path _)) by reflexivity.
  rewrite (fm_nil _ cs) by (intros [x k] _; cbn; now destruct (ns_is_empty k)).
  rewrite !app_nil_r. cbn [app]. rewrite fm_single.
  transitivity (map (fun x : Ty * list Entry => x) (order_ty path (hm_all ty_eqb (map (fun e => rr_impl (snd e)) es)))); [|apply map_id].
  apply map_ext. now intros [].
Qed.

Lemma write_traits path es cs :
  traits_of (write path (NsE es cs)) =
  order_key path (hm_all key_eqb (map (fun e => rr_trait (snd e)) es)).
Proof.
  rewrite write_eq. unfold traits_of, child_mods. parts.
  rewrite (fm_nil _ es) by (intros e _; rewrite fm_map; now apply fm_nil).
  rewrite (fm_nil _ (order_ty path _)) by reflexivity.
  rewrite (fm_nil _ cs) by (intros [x k] _; cbn; now destruct (ns_is_empty k)).
  rewrite !app_nil_r. cbn [app]. rewrite fm_single.
  transitivity (map (fun x : Key * list Entry => x) (order_key path (hm_all key_eqb (map (fun e => rr_trait (snd e)) es)))); [|apply map_id].
  apply map_ext. now intros [].
Qed.

Lemma write_mod_names path es cs :
  full (NsE es cs) -> mods_of (write path (NsE es cs)) = map fst cs.
Proof.
  intro F. rewrite write_eq. unfold mods_of, child_mods. parts.
  rewrite (fm_nil _ es) by (intros e _; rewrite fm_map; now apply fm_nil).
  rewrite (fm_nil _ (order_ty path _)) by reflexivity.
  rewrite (fm_nil _ (order_key path _)) by reflexivity. cbn [app].
  rewrite <- fm_single. 
  assert (G : forall l, incl l cs -> flat_map (fun a => flat_map
     (fun i : output => match i with OMod x _ => [x] | _ => [] end)
     (if ns_is_empty (snd a) then [] else [OMod (fst a) (write (path ++ [fst a]) (snd a))])) l
     = flat_map (fun a => [fst a]) l).
  { induction l as [|[x k] l IH]; intro I; [reflexivity|]. cbn [flat_map fst snd].
    rewrite IH by (intros y Iy; apply I; now right).
    destruct (full_child _ _ x k F (I _ (or_introl eq_refl))) as [-> _]. reflexivity. }
  apply G, incl_refl.
Qed.

End OutputSpec.

Lemma module_at_app {T} (t : nstree T) p q m :
  module_at t (p ++ q) m -> exists m0, module_at t p m0 /\ module_at m0 q m.
Proof.
  revert t; induction p as [|x p IH]; cbn; intros t H; [exists t; split; [constructor|exact H]|].
  inversion H as [|e cs ? k ? ? I M]; subst. destruct (IH _ M) as [m0 [A B]].
  exists m0. split; [econstructor; eauto|exact B].
Qed.

Lemma module_at_trans {T} (t : nstree T) p q m m' :
  module_at t p m -> module_at m q m' -> module_at t (p ++ q) m'.
Proof. intros M M'. induction M; [exact M'|]. cbn. econstructor; eauto. Qed.

Lemma empty_sub {T} (t : nstree T) p m :
  ns_is_empty t = true -> module_at t p m -> ns_entries m = [].
Proof.
  intros E M. induction M as [t|e cs x k p m I M IH].
  - destruct t. now apply ns_is_empty_eq in E as [-> _].
  - apply ns_is_empty_eq in E as [_ E]. exact (IH (E _ _ I)).
Qed.

Lemma new_full Item Entry Ty Key (input : list (qname * rs_result Item Entry Ty Key)) t :
  new_entries (fun e => qn_ns (fst e)) input = Some t -> full Item Entry Ty Key t.
Proof.
  intros E p m Np M. destruct (ns_is_empty m) eqn:Z; [exfalso|reflexivity].
  destruct (proj1 (c41_modules _ _ _ _ E p Np) (ex_intro _ m M)) as (a & q & I & Q).
  destruct (c41_entries_are_the_namespace _ (fun e => qn_ns (fst e)) input) as [t' [E' H]].
  rewrite E' in E. inversion E; subst t'. clear E.
  destruct (proj2 (c41_modules _ _ _ _ E' (p ++ q) ltac:(destruct p; [congruence|discriminate])))
    as [m' M'].
  { exists a, []. rewrite app_nil_r. auto. }
  destruct (module_at_app _ _ _ _ M') as [m0 [M0 M1]].
  rewrite (proj2 (c41_one_module_per_path _ _ _ _ E') _ _ _ M0 M) in M1.
  pose proof (empty_sub _ _ _ Z M1) as W. rewrite (H _ _ M') in W.
  assert (In a (of_namespace (fun e => qn_ns (fst e)) (p ++ q) input)).
  { apply filter_In. split; [exact I|]. destruct (path_dec _ _); [reflexivity|congruence]. }
  rewrite W in *. contradiction.
Qed.

Arguments out_at {Item Entry Ty Key}.
Arguments items_of {Item Entry Ty Key}.
Arguments impls_of {Item Entry Ty Key}.
Arguments traits_of {Item Entry Ty Key}.
Arguments mods_of {Item Entry Ty Key}.
Arguments blocks {Entry K}.

(** ** Theorems about the modules written out

    Whatever the order in which the [HashMap]s of a run are iterated: each module
    of the output holds the items of the results of its namespace in their order,
    one [impl] block for each type its results have methods for, with all of them
    in order, likewise for traits, and one inner module for each namespace directly
    inside that has results in it or below. *)
Theorem c41_output_module :
  forall (Item Entry Ty Key : Type) (ty_eqb : Ty -> Ty -> bool) (key_eqb : Key -> Key -> bool)
         order_ty order_key (input : list (qname * rs_result Item Entry Ty Key)),
  (forall a b, ty_eqb a b = true <-> a = b) ->
  (forall a b, key_eqb a b = true <-> a = b) ->
  (forall p l, Permutation (order_ty p l) l) ->
  (forall p l, Permutation (order_key p l) l) ->
  exists o,
  generate_final_output_namespace ty_eqb key_eqb order_ty order_key input = Some o /\
  forall p o', out_at o p o' ->
    let here := map snd (of_namespace (fun e => qn_ns (fst e)) p input) in
    items_of o' = flat_map rr_out here /\
    blocks ty_eqb (impls_of o') (flat_map (fun r => some_list (rr_impl r)) here) /\
    blocks key_eqb (traits_of o') (flat_map (fun r => some_list (rr_trait r)) here) /\
    StronglySorted str_lt (mods_of o') /\
    forall x, In x (mods_of o') <-> exists r q, In r input /\ qn_ns (fst r) = p ++ x :: q.
Proof.
  intros Item Entry Ty Key ty_eqb key_eqb order_ty order_key input Ht Hk Pt Pk.
  destruct (c41_entries_are_the_namespace _ (fun e : qname * rs_result Item Entry Ty Key => qn_ns (fst e)) input) as [t [E H]].
  unfold generate_final_output_namespace. rewrite E. eexists. split; [reflexivity|].
  intros p o' O. apply out_at_write in O; [|now apply (new_full _ _ _ _ input)].
  destruct O as [m [M ->]]. cbn [app]. pose proof (H _ _ M) as He. destruct m as [es cs].
  cbn [ns_entries] in He. subst es. set (here := of_namespace _ p input) in *.
  assert (Fm : full Item Entry Ty Key (NsE here cs)).
  { intros q m Nq Mq. apply (new_full _ _ _ _ input t E (p ++ q)).
    - destruct p; [exact Nq|discriminate].
    - eapply module_at_trans; eassumption. }
  split; [|split; [|split; [|split]]].
  - rewrite write_items. now rewrite fm_map.
  - rewrite write_impls. eapply blocks_perm; [apply Pt|].
    pose proof (hm_all_blocks Entry ty_eqb Ht (map (fun e => rr_impl (snd e)) here)) as B.
    rewrite fm_map in B. now rewrite fm_map.
  - rewrite write_traits. eapply blocks_perm; [apply Pk|].
    pose proof (hm_all_blocks Entry key_eqb Hk (map (fun e => rr_trait (snd e)) here)) as B.
    rewrite fm_map in B. now rewrite fm_map.
  - rewrite write_mod_names by exact Fm.
    assert (S : sorted_tree t) by apply (c41_one_module_per_path _ _ _ _ E).
    assert (S' : sorted_tree (NsE here cs)).
    { clear -M S. revert S. induction M as [|e cs0 x k p m I M IH]; [auto|].
      intro S. inversion S; subst. eauto. }
    now inversion S'.
  - intro x. rewrite write_mod_names by exact Fm. split.
    + intro I. apply in_map_iff in I as [[y k] [Ey I]]. cbn in Ey. subst y.
      assert (Mx : module_at t (p ++ [x]) k).
      { eapply module_at_trans; [exact M|]. econstructor; [exact I|constructor]. }
      destruct (proj1 (c41_modules _ _ _ _ E (p ++ [x]) ltac:(now destruct p)) (ex_intro _ k Mx))
        as (r & q & Ir & Q).
      exists r, q. split; [exact Ir|]. rewrite Q, <- app_assoc. reflexivity.
    + intros (r & q & Ir & Q).
      destruct (proj2 (c41_modules _ _ _ _ E (p ++ [x]) ltac:(now destruct p))) as [k Mx].
      { exists r, q. split; [exact Ir|]. rewrite Q, <- app_assoc. reflexivity. }
      destruct (module_at_app _ _ _ _ Mx) as [m0 [M0 M1]].
      rewrite (proj2 (c41_one_module_per_path _ _ _ _ E) _ _ _ M0 M) in M1.
      inversion M1 as [|? ? ? k' ? ? I' M']; subst. apply in_map_iff. now exists (x, k').
Qed.

(** Every result ends up in a module: the one named by its namespace exists. *)
Theorem c41_output_has_module :
  forall (Item Entry Ty Key : Type) (ty_eqb : Ty -> Ty -> bool) (key_eqb : Key -> Key -> bool)
         order_ty order_key (input : list (qname * rs_result Item Entry Ty Key)) o r,
  generate_final_output_namespace ty_eqb key_eqb order_ty order_key input = Some o ->
  In r input -> exists o', out_at o (qn_ns (fst r)) o'.
Proof.
  intros Item Entry Ty Key ty_eqb key_eqb order_ty order_key input o r G I.
  unfold generate_final_output_namespace in G.
  destruct (new_entries _ input) as [t|] eqn:E; [|discriminate]. inversion G; subst. clear G.
  destruct (path_dec (qn_ns (fst r)) []) as [Z|Z]; [rewrite Z; eexists; constructor|].
  destruct (proj2 (c41_modules _ _ _ _ E _ Z)) as [m M].
  { exists r, []. rewrite app_nil_r. auto. }
  eexists. apply out_at_write; [now apply (new_full _ _ _ _ input)|]. eauto.
Qed.

(** The order of the [impl] blocks is not determined by the input: two runs may
    write different code for the same results. *)
Theorem c41_output_order_refuted :
  exists (input : list (qname * rs_result nat nat nat nat)) f g,
    (forall p l, Permutation (f p l) l) /\ (forall p l, Permutation (g p l) l) /\
    generate_final_output_namespace Nat.eqb Nat.eqb f (fun _ l => l) input <>
    generate_final_output_namespace Nat.eqb Nat.eqb g (fun _ l => l) input.
Proof.
  exists [(QN [] "a_get", RsResult [] (Some (1, 10)) None); (QN [] "b_get", RsResult [] (Some (2, 20)) None)],
    (fun _ l => l), (fun _ l => rev l).
  split; [reflexivity|]. split; [intros _ l; symmetry; apply Permutation_rev|].
  vm_compute. discriminate.
Qed.

(** * C73: names of modules

    A module of the output has distinct names for its inner modules and for the
    modules it imports exactly when no C++ namespace there has one of the names
    autocxx uses itself. *)
Theorem c73_module_names :
  forall (Item Entry Ty Key : Type) (ty_eqb : Ty -> Ty -> bool) (key_eqb : Key -> Key -> bool)
         order_ty order_key (input : list (qname * rs_result Item Entry Ty Key)) o p o',
  generate_final_output_namespace ty_eqb key_eqb order_ty order_key input = Some o ->
  out_at o p o' ->
  (NoDup (module_uses p ++ mods_of o') <->
   forall r x q, In r input -> qn_ns (fst r) = p ++ x :: q -> ~ In x (module_uses p)).
Proof.
  intros Item Entry Ty Key ty_eqb key_eqb order_ty order_key input o p o' G O.
  unfold generate_final_output_namespace in G.
  destruct (new_entries _ input) as [t|] eqn:E; [|discriminate]. inversion G; subst. clear G.
  apply out_at_write in O; [|now apply (new_full _ _ _ _ input)].
  destruct O as [[es cs] [M ->]]. cbn [app].
  assert (Fm : full Item Entry Ty Key (NsE es cs)).
  { intros q m Nq Mq. apply (new_full _ _ _ _ input t E (p ++ q)).
    - destruct p; [exact Nq|discriminate].
    - eapply module_at_trans; eassumption. }
  rewrite write_mod_names by exact Fm.
  assert (S' : sorted_tree (NsE es cs)).
  { assert (S : sorted_tree t) by apply (c41_one_module_per_path _ _ _ _ E).
    clear -M S. revert S. induction M as [|e cs0 x k p m I M IH]; [auto|].
    intro S. inversion S; subst. eauto. }
  assert (N : NoDup (map fst cs)).
  { inversion S' as [? ? SS _]; subst. clear -SS. induction SS as [|x l SS IH F]; constructor; [|exact IH].
    intro I. rewrite Forall_forall in F. exact (str_lt_irrefl x (F x I)). }
  assert (U : NoDup (module_uses p)).
  { destruct p; cbn; repeat constructor; cbn; intuition discriminate. }
  assert (X : forall x, In x (map fst cs) <-> exists r q, In r input /\ qn_ns (fst r) = p ++ x :: q).
  { intro x. split.
    - intro I. apply in_map_iff in I as [[y k] [Ey I]]. cbn in Ey. subst y.
      assert (Mx : module_at t (p ++ [x]) k).
      { eapply module_at_trans; [exact M|]. econstructor; [exact I|constructor]. }
      destruct (proj1 (c41_modules _ _ _ _ E (p ++ [x]) ltac:(now destruct p)) (ex_intro _ k Mx))
        as (r & q & Ir & Q).
      exists r, q. split; [exact Ir|]. rewrite Q, <- app_assoc. reflexivity.
    - intros (r & q & Ir & Q).
      destruct (proj2 (c41_modules _ _ _ _ E (p ++ [x]) ltac:(now destruct p))) as [k Mx].
      { exists r, q. split; [exact Ir|]. rewrite Q, <- app_assoc. reflexivity. }
      destruct (module_at_app _ _ _ _ Mx) as [m0 [M0 M1]].
      rewrite (proj2 (c41_one_module_per_path _ _ _ _ E) _ _ _ M0 M) in M1.
      inversion M1 as [|? ? ? k' ? ? I' M']; subst. apply in_map_iff. now exists (x, k'). }
  split.
  - intros D r x q Ir Q Iu. destruct (NoDup_app_inv _ _ D) as (_ & _ & Z).
    apply (Z x Iu). apply X. eauto.
  - intro H. apply NoDup_app_intro; [exact U|exact N|]. intros x Iu Ic.
    apply X in Ic as (r & q & Ir & Q). exact (H r x q Ir Q Iu).
Qed.

(** A C++ namespace called [output] (or [bindgen], [cxxbridge], [root]) makes the
    generated code define a name twice, although names are checked elsewhere. *)
Theorem c73_module_names_refuted :
  exists (input : list (qname * rs_result nat nat nat nat)) o,
    generate_final_output_namespace Nat.eqb Nat.eqb (fun _ l => l) (fun _ l => l) input = Some o /\
    ~ NoDup (module_uses [] ++ mods_of o).
Proof.
  exists [(QN ["output"] "A", RsResult [1] None None)]. eexists. split; [vm_compute; reflexivity|].
  cbn. intro N. inversion N as [|? ? _ N1]; subst. inversion N1 as [|? ? _ N2]; subst.
  inversion N2 as [|? ? _ N3]; subst. inversion N3 as [|? ? X _]; subst. apply X. now left.
Qed.

Example c73_case :
  exists (input : list (qname * rs_result nat nat nat nat)) o,
    generate_final_output_namespace Nat.eqb Nat.eqb (fun _ l => l) (fun _ l => l) input = Some o /\
    out_at o ["a"] [OMod "b" [OItem 1]] /\ mods_of o = ["a"; "z"].
Proof.
  exists [(QN ["a"; "b"] "A", RsResult [1] None None); (QN ["z"] "B", RsResult [2] None None)].
  eexists. split; [vm_compute; reflexivity|]. split; [|reflexivity].
  econstructor; [left; reflexivity|constructor].
Qed.

Example c41_output_case :
  generate_final_output_namespace Nat.eqb Nat.eqb (fun _ l => l) (fun _ l => l)
    [(QN ["ns"] "A", RsResult [1; 2] None None);
     (QN ["ns"] "get", RsResult [] (Some (7, 70)) None);
     (QN [] "B", RsResult [3] None (Some (8, 80)));
     (QN ["ns"] "set", RsResult [] (Some (7, 71)) None)]
  = Some [OItem 3; OTrait 8 [80]; OMod "ns" [OItem 1; OItem 2; OImpl 7 [70; 71]]].
Proof. vm_compute. reflexivity. Qed.

Print Assumptions c41_entries_are_the_namespace.
Print Assumptions c41_each_item_once.
Print Assumptions c41_modules.
Print Assumptions c41_one_module_per_path.
Print Assumptions c41_is_empty.
Print Assumptions c41_output_module.
Print Assumptions c41_output_has_module.
Print Assumptions c41_output_order_refuted.
Print Assumptions c73_module_names.
Print Assumptions c73_module_names_refuted.
