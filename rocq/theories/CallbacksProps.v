(** C47: what bindgen reports about an item is found again under the item's
    qualified name. *)
From Verif Require Import Base CallbacksModel.

(** ** The marker *)

Lemma starts_with_app p s : starts_with p (p +++ s) = true.
Proof. apply starts_with_spec; eauto. Qed.

Lemma sdrop_app p s : sdrop (String.length p) (p +++ s) = s.
Proof. induction p as [|c p IH]; cbn; [destruct s; reflexivity|exact IH]. Qed.

Definition digits (s : string) : Prop := all_chars is_digit s = true.

Lemma split_last_none m s : m <> "" -> contains m s = false -> split_last m s = None.
Proof.
  intros N; induction s as [|c s IH]; [reflexivity|]. cbn [contains split_last]. rewrite orb_false_iff.
  intros [A B]. rewrite (IH B), A. reflexivity.
Qed.

Lemma digits_no_marker d : digits d -> contains marker d = false.
Proof.
  unfold digits. induction d as [|c d IH]; [reflexivity|]. cbn [all_chars contains]. rewrite andb_true_iff.
  intros [A B]. rewrite (IH B), orb_false_r. unfold marker. rewrite starts_with_cons.
  destruct (Ascii.eqb_spec "_" c) as [<-|]; [discriminate A|reflexivity].
Qed.

Lemma split_last_step m c s : split_last m s = None -> starts_with m (String c s) = false -> split_last m (String c s) = None.
Proof. intros A B; cbn [split_last]. rewrite A, B; reflexivity. Qed.

Lemma split_last_marker d : digits d -> split_last marker (marker +++ d) = Some ("", d).
Proof.
  intros D. apply digits_no_marker in D. apply split_last_none in D; [|discriminate].
  assert (T : split_last marker ("bindgen_original" +++ d) = None).
  { cbn [append]. repeat (apply split_last_step; [|unfold marker; rewrite !starts_with_cons; reflexivity]). exact D. }
  unfold marker at 2. change ("_bindgen_original" +++ d) with (String "_" ("bindgen_original" +++ d)).
  cbn [split_last]. rewrite T. change (String "_" ("bindgen_original" +++ d)) with (marker +++ d).
  rewrite starts_with_app, sdrop_app. reflexivity.
Qed.

Lemma split_last_app m p s a b : split_last m s = Some (a, b) -> split_last m (p +++ s) = Some (p +++ a, b).
Proof. intros H; induction p as [|c p IH]; cbn; [exact H|]. rewrite IH; reflexivity. Qed.

Lemma take_digits_all d : digits d -> take_digits d = d.
Proof.
  unfold digits; induction d as [|c d IH]; [reflexivity|]. cbn. rewrite andb_true_iff. intros [A B]. rewrite A, (IH B); reflexivity.
Qed.

(** The name which bindgen generates for an overridden function, with the
    number it may add to make it unique, is turned back into the C++ name
    with that number, whatever the C++ name is. *)
Theorem c47_marker_removed :
  forall name d, digits d -> strip_bindgen_original_suffix (generated_name_override name +++ d) = name +++ d.
Proof.
  intros name d D. unfold strip_bindgen_original_suffix, generated_name_override.
  rewrite sapp_assoc, (split_last_app _ name _ _ _ (split_last_marker d D)), take_digits_all by exact D.
  rewrite sapp_assoc; reflexivity.
Qed.
Print Assumptions c47_marker_removed.

(** Names without the marker are left alone. *)
Theorem c47_other_names_kept :
  forall name, contains marker name = false -> strip_bindgen_original_suffix name = name.
Proof.
  intros name H. unfold strip_bindgen_original_suffix. rewrite split_last_none; [reflexivity|discriminate|exact H].
Qed.
Print Assumptions c47_other_names_kept.

(** A C++ name which contains the marker itself loses everything after it:
    two different classes may get the same recorded name. *)
Theorem c47_marker_inside_refuted :
  exists a b, a <> b /\ strip_bindgen_original_suffix a = strip_bindgen_original_suffix b.
Proof. exists "x_bindgen_original_a", "x_bindgen_original_b". split; [discriminate|reflexivity]. Qed.
Print Assumptions c47_marker_inside_refuted.

(** ** What was reported *)

(** The last report of a kind about an item. *)
Fixpoint last_report {V} (f : event -> option V) (es : list event) : option V :=
  match es with
  | [] => None
  | e :: es' => match last_report f es' with Some v => Some v | None => f e end
  end.

Definition name_report (id : nat) (e : event) : option string :=
  match e with
  | EvItem i n => if i =? id then Some (strip_bindgen_original_suffix n) else None
  | EvMod i n _ => if i =? id then Some n else None
  | _ => None
  end.
Definition parent_report (id : nat) (e : event) : option nat :=
  match e with
  | EvCppName i _ (Some m) => if i =? id then Some m else None
  | EvMod i _ (Some m) => if i =? id then Some m else None
  | _ => None
  end.
Definition root_report (e : event) : option nat :=
  match e with EvMod i _ None => Some i | _ => None end.
Definition original_report (id : nat) (e : event) : option string :=
  match e with
  | EvCppName i (Some n) _ => if i =? id then Some (strip_bindgen_original_suffix n) else None
  | _ => None
  end.
Definition virtual_report (id : nat) (e : event) : option cb_virtual :=
  match e with EvVirtual i v => if i =? id then Some v else None | _ => None end.
Definition special_report (id : nat) (e : event) : option cb_special :=
  match e with EvSpecial i v => if i =? id then Some v else None | _ => None end.
Definition explicit_report (id : nat) (e : event) : option cb_explicit :=
  match e with EvExplicit i v => if i =? id then Some v else None | _ => None end.
Definition discards_report (id : nat) (e : event) : option unit :=
  match e with EvDiscards i => if i =? id then Some tt else None | _ => None end.
(** Reports that an item is public are not recorded. *)
Definition hidden_report (id : nat) (e : event) : option cb_visibility :=
  match e with
  | EvVisibility i CbPublic => None
  | EvVisibility i v => if i =? id then Some v else None
  | _ => None
  end.

(** Where an item is, going by the reports: module [id] is the one reached
    from the root module by the segments [ns]. *)
Inductive is_mod (es : list event) : list string -> nat -> Prop :=
| mod_root r : last_report root_report es = Some r -> is_mod es [] r
| mod_child ns p id n :
    is_mod es ns p -> last_report (parent_report id) es = Some p -> last_report (name_report id) es = Some n ->
    is_mod es (ns ++ [n]) id.
Definition located (es : list event) (id : nat) (q : qname) : Prop :=
  exists p, is_mod es (qn_ns q) p
    /\ last_report (parent_report id) es = Some p /\ last_report (name_report id) es = Some (qn_item q).

(** No two items of a module have the same recorded name. *)
Definition unique_names (es : list event) : Prop :=
  forall a b p n,
    last_report (parent_report a) es = Some p -> last_report (name_report a) es = Some n ->
    last_report (parent_report b) es = Some p -> last_report (name_report b) es = Some n -> a = b.

(** ** The maps hold the last reports *)

Lemma nget_nset {V} k (v : V) m k' : nget k' (nset k v m) = if k =? k' then Some v else nget k' m.
Proof.
  induction m as [|[a x] m IH]; cbn; [reflexivity|].
  destruct (Nat.eqb_spec a k) as [->|N]; cbn.
  - destruct (Nat.eqb_spec k k'); reflexivity.
  - destruct (Nat.eqb_spec a k') as [->|N']; [|exact IH].
    destruct (Nat.eqb_spec k k'); [congruence|reflexivity].
Qed.

Lemma last_report_app {V} (f : event -> option V) a b :
  last_report f (a ++ b) = match last_report f b with Some v => Some v | None => last_report f a end.
Proof.
  induction a as [|e a IH]; cbn; [destruct (last_report f b); reflexivity|].
  rewrite IH. destruct (last_report f b); reflexivity.
Qed.

Lemma run_snoc es e : run_events (es ++ [e]) = on_event (run_events es) e.
Proof. unfold run_events; rewrite fold_left_app; reflexivity. Qed.

(** A map of the results which one kind of report writes. *)
Lemma holds_last {V} (m : results -> list (nat * V)) (f : nat -> event -> option V) :
  m no_results = [] ->
  (forall r e id, nget id (m (on_event r e)) = match f id e with Some v => Some v | None => nget id (m r) end) ->
  forall es id, nget id (m (run_events es)) = last_report (f id) es.
Proof.
  intros Z S es id. induction es as [|e es IH] using rev_ind; [cbn; rewrite Z; reflexivity|].
  rewrite run_snoc, S, last_report_app, IH. cbn. destruct (f id e); reflexivity.
Qed.

Ltac step_fact := intros [?o ?v ?rt ?vi ?sp ?ex ?di ?na ?mo] e k; destruct e; cbn;
  repeat match goal with |- context [match ?x with _ => _ end] => is_var x; destruct x; cbn end;
  rewrite ?nget_nset; try reflexivity;
  repeat match goal with |- context [if ?x then _ else _] => destruct x; try reflexivity end.

Lemma names_last es id : nget id (rs_names (run_events es)) = last_report (name_report id) es.
Proof. apply (holds_last rs_names name_report eq_refl). step_fact. Qed.
Lemma mods_last es id : nget id (rs_mods (run_events es)) = last_report (parent_report id) es.
Proof. apply (holds_last rs_mods parent_report eq_refl). step_fact. Qed.
Lemma original_last es id : nget id (rs_original (run_events es)) = last_report (original_report id) es.
Proof. apply (holds_last rs_original original_report eq_refl). step_fact. Qed.
Lemma virtual_last es id : nget id (rs_virtuals (run_events es)) = last_report (virtual_report id) es.
Proof. apply (holds_last rs_virtuals virtual_report eq_refl). step_fact. Qed.
Lemma special_last es id : nget id (rs_special (run_events es)) = last_report (special_report id) es.
Proof. apply (holds_last rs_special special_report eq_refl). step_fact. Qed.
Lemma explicit_last es id : nget id (rs_explicit (run_events es)) = last_report (explicit_report id) es.
Proof. apply (holds_last rs_explicit explicit_report eq_refl). step_fact. Qed.
Lemma discards_last es id : nget id (rs_discards (run_events es)) = last_report (discards_report id) es.
Proof. apply (holds_last rs_discards discards_report eq_refl). step_fact. Qed.
Lemma visibility_last es id : nget id (rs_visibility (run_events es)) = last_report (hidden_report id) es.
Proof. apply (holds_last rs_visibility hidden_report eq_refl). step_fact. Qed.

Lemma root_last es : rs_root (run_events es) = last_report root_report es.
Proof.
  induction es as [|e es IH] using rev_ind; [reflexivity|]. rewrite run_snoc, last_report_app, <- IH.
  destruct (run_events es) as [o v rt vi sp ex di na mo], e; cbn;
    repeat match goal with |- context [match ?x with _ => _ end] => is_var x; destruct x; cbn end; reflexivity.
Qed.

(** ** The index *)

Lemma np_eqb_spec a b : np_eqb a b = true <-> a = b.
Proof.
  destruct a as [x s], b as [y t]. unfold np_eqb; cbn. rewrite andb_true_iff, Nat.eqb_eq, String.eqb_eq.
  split; [intros [-> ->]; reflexivity|intros H; injection H; auto].
Qed.

Lemma iget_iset k v m k' : iget k' (iset k v m) = if np_eqb k k' then Some v else iget k' m.
Proof.
  induction m as [|[a x] m IH]; cbn; [reflexivity|].
  destruct (np_eqb a k) eqn:E; cbn.
  - apply np_eqb_spec in E; subst a. destruct (np_eqb k k'); reflexivity.
  - destruct (np_eqb a k') eqn:E'; [|exact IH]. apply np_eqb_spec in E'; subst a.
    destruct (np_eqb k k') eqn:F; [|reflexivity]. apply np_eqb_spec in F; subst. rewrite (proj2 (np_eqb_spec k' k') eq_refl) in E.
    discriminate.
Qed.

Definition index_step (r : results) m (ip : nat * nat) :=
  match nget (fst ip) (rs_names r) with Some n => iset (snd ip, n) (fst ip) m | None => m end.

Lemma index_sound r l : forall m k id,
  (iget k m = Some id -> In (id, fst k) l \/ True) ->
  iget k (fold_left (index_step r) l m) = Some id ->
  iget k m = Some id \/ (In (id, fst k) l /\ nget id (rs_names r) = Some (snd k)).
Proof.
  induction l as [|[a p] l IH]; cbn [fold_left]; intros m k id _ H; [auto|].
  apply IH in H; [|auto]. destruct H as [H|[H1 H2]]; [|right; split; [right; exact H1|exact H2]].
  unfold index_step in H; cbn [fst snd] in H. destruct (nget a (rs_names r)) as [n|] eqn:N; [|auto].
  rewrite iget_iset in H. destruct (np_eqb (p, n) k) eqn:E; [|auto].
  apply np_eqb_spec in E; subst k. injection H as ->. right; split; [left; reflexivity|exact N].
Qed.

Lemma index_found r l : forall m id p n,
  In (id, p) l -> nget id (rs_names r) = Some n -> exists id', iget (p, n) (fold_left (index_step r) l m) = Some id'.
Proof.
  assert (K : forall l m k v, iget k m = Some v -> exists v', iget k (fold_left (index_step r) l m) = Some v').
  { induction l0 as [|[a q] l0 IH]; cbn [fold_left]; intros m k v H; [eauto|].
    unfold index_step at 2; cbn [fst snd]. destruct (nget a (rs_names r)) as [n|]; [|eapply IH; exact H].
    destruct (np_eqb (q, n) k) eqn:E; eapply IH; rewrite iget_iset, E; [reflexivity|exact H]. }
  induction l as [|[a q] l IH]; cbn [fold_left]; intros m id p n I N; [destruct I|].
  destruct I as [E|I]; [|eapply IH; eassumption]. injection E as -> ->.
  eapply K. unfold index_step; cbn [fst snd]. rewrite N, iget_iset.
  rewrite (proj2 (np_eqb_spec _ _) eq_refl). reflexivity.
Qed.

Lemma nget_in {V} k (v : V) m : nget k m = Some v -> In (k, v) m.
Proof.
  induction m as [|[a x] m IH]; cbn; [discriminate|]. destruct (Nat.eqb_spec a k) as [->|]; intros H; [left; congruence|auto].
Qed.

Lemma nset_keys {V} k (v : V) m x : In x (map fst (nset k v m)) <-> x = k \/ In x (map fst m).
Proof.
  induction m as [|[a y] m IH]; cbn; [intuition|]. destruct (Nat.eqb_spec a k) as [->|]; cbn; [intuition|].
  rewrite IH; intuition.
Qed.
Lemma nset_nodup {V} k (v : V) m : NoDup (map fst m) -> NoDup (map fst (nset k v m)).
Proof.
  induction m as [|[a y] m IH]; cbn; intros N; [repeat constructor; easy|]. apply NoDup_cons_iff in N as [N1 N2].
  destruct (Nat.eqb_spec a k) as [->|]; cbn; constructor; auto. rewrite nset_keys; intuition.
Qed.
Lemma in_nget {V} k (v : V) m : NoDup (map fst m) -> In (k, v) m -> nget k m = Some v.
Proof.
  induction m as [|[a y] m IH]; cbn; intros N I; [destruct I|]. apply NoDup_cons_iff in N as [N1 N2].
  destruct I as [E|I]; [injection E as -> ->; rewrite Nat.eqb_refl; reflexivity|].
  destruct (Nat.eqb_spec a k) as [->|]; [exfalso; apply N1; apply (in_map fst) in I; exact I|auto].
Qed.

Lemma mods_nodup es : NoDup (map fst (rs_mods (run_events es))).
Proof.
  induction es as [|e es IH] using rev_ind; [constructor|]. rewrite run_snoc.
  destruct (run_events es) as [o v rt vi sp ex di na mo]; destruct e; cbn in *;
    repeat match goal with |- context [match ?x with _ => _ end] => is_var x; destruct x; cbn end;
    try exact IH; apply nset_nodup; exact IH.
Qed.

Lemma iget_index_sound es p n id : iget (p, n) (index (run_events es)) = Some id ->
  last_report (parent_report id) es = Some p /\ last_report (name_report id) es = Some n.
Proof.
  intros H. apply (index_sound (run_events es)) in H; [|auto]. destruct H as [H|[H1 H2]]; [discriminate H|].
  cbn in H1, H2. rewrite <- mods_last, <- names_last. split; [|exact H2].
  apply in_nget; [apply mods_nodup|exact H1].
Qed.

Lemma iget_index_found es p n id : unique_names es ->
  last_report (parent_report id) es = Some p -> last_report (name_report id) es = Some n ->
  iget (p, n) (index (run_events es)) = Some id.
Proof.
  intros U P N. rewrite <- mods_last in P. rewrite <- names_last in N.
  destruct (index_found (run_events es) (rs_mods (run_events es)) [] id p n (nget_in _ _ _ P) N) as [id' E].
  change (fold_left _ _ _) with (index (run_events es)) in E. rewrite E. f_equal.
  apply iget_index_sound in E as [E1 E2]. rewrite mods_last in P. rewrite names_last in N. eapply U; eassumption.
Qed.

Lemma mod_id_app ix p a b : mod_id ix p (a ++ b) = match mod_id ix p a with Some q => mod_id ix q b | None => None end.
Proof. revert p; induction a as [|n a IH]; intros p; cbn; [reflexivity|]. destruct (iget (p, n) ix); [apply IH|reflexivity]. Qed.

Lemma mod_id_sound es r ns id : last_report root_report es = Some r ->
  mod_id (index (run_events es)) r ns = Some id -> is_mod es ns id.
Proof.
  intros R. revert id; induction ns as [|n ns IH] using rev_ind; intros id H.
  - injection H as <-. constructor; exact R.
  - rewrite mod_id_app in H. destruct (mod_id _ r ns) as [p|] eqn:E; [|discriminate H].
    cbn in H. destruct (iget (p, n) _) as [c|] eqn:F; [|discriminate H]. injection H as ->.
    apply iget_index_sound in F as [F1 F2]. econstructor; [apply IH; reflexivity| |]; eassumption.
Qed.

Lemma mod_id_found es r ns id : unique_names es -> last_report root_report es = Some r ->
  is_mod es ns id -> mod_id (index (run_events es)) r ns = Some id.
Proof.
  intros U R. induction 1 as [r' R'|ns p id n M IH P N]; [cbn; congruence|].
  rewrite mod_id_app, IH. cbn. rewrite (iget_index_found es p n id U P N). reflexivity.
Qed.

Lemma is_mod_root es ns id : is_mod es ns id -> exists r, last_report root_report es = Some r.
Proof. induction 1; eauto. Qed.

Lemma id_by_name_found es id q : unique_names es -> located es id q -> id_by_name (run_events es) q = Ok (Some id).
Proof.
  intros U (p & M & P & N). unfold id_by_name. destruct (is_mod_root _ _ _ M) as [r R].
  rewrite root_last, R. rewrite (mod_id_found es r _ _ U R M), (iget_index_found es p _ id U P N). reflexivity.
Qed.

Lemma id_by_name_sound es id q : id_by_name (run_events es) q = Ok (Some id) -> located es id q.
Proof.
  unfold id_by_name. rewrite root_last. destruct (last_report root_report es) as [r|] eqn:R; [|discriminate].
  intros H; injection H as H. destruct (mod_id _ r (qn_ns q)) as [p|] eqn:M; [|discriminate H].
  apply iget_index_sound in H as [H1 H2]. exists p; split; [eapply mod_id_sound; eassumption|]. auto.
Qed.

(** ** Theorems *)

(** Every lookup by the qualified name of an item gives the last report about
    that item. *)
Theorem c47_facts_found :
  forall es id q, unique_names es -> located es id q ->
    get_original_name (run_events es) q = Ok (last_report (original_report id) es)
    /\ get_virtualness (run_events es) q = Ok (last_report (virtual_report id) es)
    /\ special_member_kind (run_events es) q = Ok (last_report (special_report id) es)
    /\ get_deleted_or_defaulted (run_events es) q = Ok (last_report (explicit_report id) es)
    /\ (exists v, get_cpp_visibility (run_events es) q = Ok v
          /\ (v = CbPublic <-> forall e, In e es -> hidden_report id e = None)
          /\ (v <> CbPublic -> last_report (hidden_report id) es = Some v))
    /\ (exists b, discards_template_param (run_events es) q = Ok b
          /\ (b = true <-> In (EvDiscards id) es)).
Proof.
  intros es id q U L. pose proof (id_by_name_found es id q U L) as F.
  unfold get_original_name, get_virtualness, special_member_kind, get_deleted_or_defaulted,
    get_cpp_visibility, discards_template_param, fact. rewrite F.
  rewrite original_last, virtual_last, special_last, explicit_last, visibility_last, discards_last.
  assert (NoneIff : forall V (f : event -> option V), last_report f es = None <-> forall e, In e es -> f e = None).
  { intros V f. induction es as [|e l IH] using rev_ind; [split; [intros _ e []|reflexivity]|].
    clear - IH. revert IH. rewrite last_report_app. cbn. intros _.
    induction l as [|x l IH]; cbn.
    - destruct (f e) eqn:E; split; try discriminate; auto.
      + intros H. rewrite <- E. apply H; auto.
      + intros _ y [<-|[]]; exact E.
    - destruct (f e) eqn:E.
      + split; [discriminate|]. intros H. rewrite <- E. apply H. right; apply in_app_iff; right; left; reflexivity.
      + destruct (last_report f l) as [w|] eqn:F.
        * split; [discriminate|]. intros H. destruct IH as [_ IH]. apply IH. intros y I; apply H; right; exact I.
        * split; [intros X y [<-|I]; [exact X|apply IH; auto]|intros H; apply H; left; reflexivity]. }
  do 4 (split; [reflexivity|]). split.
  - destruct (last_report (hidden_report id) es) as [v|] eqn:E.
    + exists v; split; [reflexivity|]. split; [|auto]. split.
      * intros ->. exfalso. assert (X : forall l, last_report (hidden_report id) l <> Some CbPublic).
        { induction l as [|e l IH]; cbn; [discriminate|]. destruct (last_report (hidden_report id) l) as [w|]; [congruence|].
          destruct e; cbn; try discriminate. destruct v; try discriminate; destruct (_ =? _); discriminate. }
        exact (X es E).
      * intros H. apply NoneIff in H. congruence.
    + exists CbPublic; split; [reflexivity|]. split; [|congruence]. split; [intros _; apply NoneIff; exact E|reflexivity].
  - destruct (last_report (discards_report id) es) as [u|] eqn:E.
    + exists true; split; [reflexivity|]. split; [intros _|reflexivity].
      clear - E. revert E. induction es as [|e l IH]; cbn; [discriminate|].
      destruct (last_report (discards_report id) l) as [w|]; [intros _; right; apply IH; destruct w, u; reflexivity|].
      destruct e; cbn; try discriminate. destruct (Nat.eqb_spec id0 id) as [->|]; [left; reflexivity|discriminate].
    + exists false; split; [reflexivity|]. split; [discriminate|]. intros I.
      rewrite NoneIff in E. specialize (E _ I). cbn in E. rewrite Nat.eqb_refl in E. discriminate.
Qed.
Print Assumptions c47_facts_found.

(** Whatever a lookup returns was reported about an item with exactly that
    qualified name, even when names are not unique. *)
Theorem c47_facts_of_that_name_only :
  forall es q,
    (forall v, get_original_name (run_events es) q = Ok (Some v) ->
       exists id, located es id q /\ last_report (original_report id) es = Some v)
    /\ (forall v, get_virtualness (run_events es) q = Ok (Some v) ->
       exists id, located es id q /\ last_report (virtual_report id) es = Some v)
    /\ (forall v, special_member_kind (run_events es) q = Ok (Some v) ->
       exists id, located es id q /\ last_report (special_report id) es = Some v)
    /\ (forall v, get_deleted_or_defaulted (run_events es) q = Ok (Some v) ->
       exists id, located es id q /\ last_report (explicit_report id) es = Some v)
    /\ (forall v, get_cpp_visibility (run_events es) q = Ok v -> v <> CbPublic ->
       exists id, located es id q /\ last_report (hidden_report id) es = Some v)
    /\ (discards_template_param (run_events es) q = Ok true ->
       exists id, located es id q /\ last_report (discards_report id) es = Some tt).
Proof.
  intros es q.
  assert (G : forall V (m : results -> list (nat * V)) (f : nat -> event -> option V),
    (forall id, nget id (m (run_events es)) = last_report (f id) es) ->
    forall v, fact m (run_events es) q = Ok (Some v) -> exists id, located es id q /\ last_report (f id) es = Some v).
  { intros V m f H v E. unfold fact in E. destruct (id_by_name (run_events es) q) as [[id|]|] eqn:I; try discriminate E.
    injection E as E. exists id; split; [apply id_by_name_sound; exact I|]. rewrite <- H; exact E. }
  split; [exact (G _ rs_original original_report (original_last es))|].
  split; [exact (G _ rs_virtuals virtual_report (virtual_last es))|].
  split; [exact (G _ rs_special special_report (special_last es))|].
  split; [exact (G _ rs_explicit explicit_report (explicit_last es))|]. split.
  - intros v H N. unfold get_cpp_visibility in H. destruct (fact rs_visibility _ q) as [[w|]|] eqn:E; try congruence.
    injection H as ->. exact (G _ rs_visibility hidden_report (visibility_last es) v E).
  - intros H. unfold discards_template_param in H. destruct (fact rs_discards _ q) as [[[]|]|] eqn:E; try discriminate H.
    exact (G _ rs_discards discards_report (discards_last es) tt E).
Qed.
Print Assumptions c47_facts_of_that_name_only.

(** The lookup panics exactly when no root module was reported. *)
Theorem c47_panics_without_root :
  forall es q, id_by_name (run_events es) q = Err tt <-> forall e, In e es -> root_report e = None.
Proof.
  intros es q. unfold id_by_name. rewrite root_last.
  assert (X : last_report root_report es = None <-> forall e, In e es -> root_report e = None).
  { induction es as [|e l IH]; cbn; [split; [intros _ e []|reflexivity]|].
    destruct (last_report root_report l) as [w|] eqn:E.
    - split; [discriminate|]. intros H. assert (Some w = None) by (apply IH; intros y I; apply H; right; exact I). congruence.
    - split; [intros Y y [<-|I]; [exact Y|apply IH; auto]|intros H; apply H; left; reflexivity]. }
  destruct (last_report root_report es) as [r|]; split; try discriminate.
  - intros H. apply X in H. discriminate.
  - intros _. apply X; reflexivity.
  - reflexivity.
Qed.
Print Assumptions c47_panics_without_root.

(** Two overloads [foo] beside a function [foo1]: bindgen numbers the second
    overload, so that after removing the marker both it and [foo1] are known
    as [foo1]. The pure virtual overload is then taken for an ordinary
    function, and what is returned for it was said of another item. *)
Definition overload_events : list event :=
  [EvMod 0 "root" None;
   EvItem 1 (generated_name_override "foo"); EvCppName 1 (Some "foo") (Some 0);
   EvItem 2 (generated_name_override "foo" +++ "1"); EvCppName 2 (Some "foo") (Some 0); EvVirtual 2 CbPureVirtual;
   EvItem 3 (generated_name_override "foo1"); EvCppName 3 (Some "foo1") (Some 0)].
Theorem c47_overloads_confused_refuted :
  exists es id q, located es id q /\ last_report (virtual_report id) es = Some CbPureVirtual
    /\ last_report (original_report id) es = Some "foo"
    /\ get_virtualness (run_events es) q = Ok None
    /\ get_original_name (run_events es) q = Ok (Some "foo1").
Proof.
  exists overload_events, 2, (QN [] "foo1"). split; [exists 0; split; [constructor; reflexivity|split; reflexivity]|].
  repeat split; reflexivity.
Qed.
Print Assumptions c47_overloads_confused_refuted.

(** A later report that an item is public does not undo an earlier one. *)
Theorem c47_public_report_ignored_refuted :
  exists es id q, located es id q
    /\ last_report (fun e => match e with EvVisibility i v => if i =? id then Some v else None | _ => None end) es = Some CbPublic
    /\ get_cpp_visibility (run_events es) q = Ok CbPrivate.
Proof.
  exists [EvMod 0 "root" None; EvItem 1 "C"; EvCppName 1 None (Some 0); EvVisibility 1 CbPrivate; EvVisibility 1 CbPublic],
    1, (QN [] "C").
  split; [exists 0; split; [constructor; reflexivity|split; reflexivity]|]. split; reflexivity.
Qed.
Print Assumptions c47_public_report_ignored_refuted.

Example c47_case :
  let es := [EvMod 0 "root" None; EvMod 1 "a" (Some 0); EvMod 2 "b" (Some 1); EvItem 3 "C"; EvCppName 3 (Some "Outer::C") (Some 2);
             EvItem 4 "C"; EvCppName 4 None (Some 0); EvVisibility 3 CbProtected; EvVirtual 4 CbVirtual; EvDiscards 3] in
  unique_names es /\ located es 3 (QN ["a"; "b"] "C") /\ located es 4 (QN [] "C")
  /\ get_original_name (run_events es) (QN ["a"; "b"] "C") = Ok (Some "Outer::C")
  /\ get_cpp_visibility (run_events es) (QN ["a"; "b"] "C") = Ok CbProtected
  /\ get_cpp_visibility (run_events es) (QN [] "C") = Ok CbPublic
  /\ get_virtualness (run_events es) (QN [] "C") = Ok (Some CbVirtual)
  /\ get_virtualness (run_events es) (QN ["a"] "C") = Ok None.
Proof.
  cbv zeta. split; [|split; [|split; [|repeat split]]].
  - intros a b p n A B C D.
    do 5 (destruct a as [|a]; [do 5 (destruct b as [|b]; [vm_compute in A, B, C, D; congruence|]); vm_compute in C; discriminate C|]).
    vm_compute in A; discriminate A.
  - exists 2. split; [|split; reflexivity]. apply (mod_child _ ["a"] 1 2 "b"); [|reflexivity|reflexivity].
    apply (mod_child _ [] 0 1 "a"); [|reflexivity|reflexivity]. constructor; reflexivity.
  - exists 0. split; [constructor; reflexivity|split; reflexivity].
Qed.
