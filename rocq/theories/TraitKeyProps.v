(** C100: there is one implementation of each trait for each type. *)
From Verif Require Import Base TraitKeyModel NsModel.

(** Two keys are equal exactly if all three parts are; in particular equality is an equivalence, as [Eq] promises. *)
Theorem c100_equal : forall a b, sig_eq a b = true <-> ts_ty a = ts_ty b /\ ts_trait a = ts_trait b /\ ts_unsafety a = ts_unsafety b.
Proof.
  intros a b. unfold sig_eq, totokens_equal. rewrite !andb_true_iff, !String.eqb_eq. tauto.
Qed.
Lemma sig_eq_eq a b : sig_eq a b = true <-> a = b.
Proof. rewrite c100_equal. destruct a, b. cbn. split; [intros (-> & -> & ->); reflexivity|intros E; injection E as -> -> ->; auto]. Qed.

(** Bytes of text in UTF-8, none of which is 255. *)
Definition utf8 (s : string) : Prop := ~ In end_mark (list_ascii_of_string s).
Lemma split_mark a b r r' : ~ In end_mark a -> ~ In end_mark b -> a ++ end_mark :: r = b ++ end_mark :: r' -> a = b /\ r = r'.
Proof.
  revert b. induction a as [|x a IH]; intros [|y b] Na Nb E; cbn [app] in E.
  - injection E as E. auto.
  - injection E as E _. destruct Nb. left. auto.
  - injection E as E _. destruct Na. left. auto.
  - injection E as -> E. destruct (IH b) as [-> ->]; [intros I; apply Na; right; exact I|intros I; apply Nb; right; exact I|exact E|]. auto.
Qed.
Lemma bytes_inj a b : list_ascii_of_string a = list_ascii_of_string b -> a = b.
Proof. intros E. rewrite <- (string_of_list_ascii_of_string a), E. apply string_of_list_ascii_of_string. Qed.

(** Equal keys give the hasher the same bytes, as [Hash] promises, and keys which are not give it different bytes: no two implementations are confused by how their texts are
    put together. *)
Theorem c100_hash : forall a b,
  (sig_eq a b = true -> sig_hashed a = sig_hashed b) /\
  (utf8 (ts_ty a) -> utf8 (ts_trait a) -> utf8 (ts_unsafety a) -> utf8 (ts_ty b) -> utf8 (ts_trait b) -> utf8 (ts_unsafety b) -> sig_hashed a = sig_hashed b -> sig_eq a b = true).
Proof.
  intros a b. split; [intros E; apply sig_eq_eq in E; rewrite E; reflexivity|].
  intros A1 A2 A3 B1 B2 B3 E. unfold sig_hashed, hash_totokens in E. rewrite <- !app_assoc in E. cbn [app] in E.
  apply split_mark in E as [E1 E]; [|exact A1|exact B1]. apply split_mark in E as [E2 E]; [|exact A2|exact B2]. apply split_mark in E as [E3 _]; [|exact A3|exact B3].
  apply c100_equal. split; [|split]; apply bytes_inj; assumption.
Qed.

Section Grouping.
Variable hasher : list ascii -> nat.
Variable item : Type.
Notation push := (entry_push hasher item).

(** The methods of one implementation, in the order they come. *)
Definition methods_of (k : trait_sig) (l : list (trait_sig * item)) : list item := flat_map (fun x => if sig_eq k (fst x) then [snd x] else []) l.

Lemma same_found k k' : Nat.eqb (hasher (sig_hashed k)) (hasher (sig_hashed k')) && sig_eq k k' = sig_eq k k'.
Proof. destruct (sig_eq k k') eqn:E; [|apply andb_false_r]. apply sig_eq_eq in E. subst k'. rewrite Nat.eqb_refl. reflexivity. Qed.
Lemma push_keys k i m : forall x, In x (map fst (push k i m)) <-> x = k \/ In x (map fst m).
Proof.
  induction m as [|[k' is] m IH]; intros x; cbn [entry_push]; [cbn; intuition congruence|]. rewrite same_found. destruct (sig_eq k k') eqn:E.
  - apply sig_eq_eq in E. subst k'. cbn. intuition congruence.
  - cbn [map fst In]. rewrite IH. intuition.
Qed.
Lemma push_nodup k i m : NoDup (map fst m) -> NoDup (map fst (push k i m)).
Proof.
  induction m as [|[k' is] m IH]; intros N; cbn [entry_push]; [constructor; [intros []|constructor]|]. rewrite same_found. destruct (sig_eq k k') eqn:E; [exact N|].
  cbn [map fst] in *. inversion N as [|? ? N1 N2]. constructor; [|apply IH; exact N2]. rewrite push_keys. intros [X|X]; [|exact (N1 X)]. subst k'.
  assert (Y : sig_eq k k = true) by (apply sig_eq_eq; reflexivity). congruence.
Qed.
Lemma push_items k i m : NoDup (map fst m) -> forall x is, In (x, is) (push k i m) <->
  (x <> k /\ In (x, is) m) \/ (x = k /\ ((exists is', In (k, is') m /\ is = is' ++ [i]) \/ (~ In k (map fst m) /\ is = [i]))).
Proof.
  induction m as [|[k' is0] m IH]; intros N x is; cbn [entry_push].
  - cbn. split.
    + intros [E|[]]. injection E as <- <-. right. auto.
    + intros [[_ []]|(-> & [(is' & [] & _)|(_ & ->)])]. auto.
  - rewrite same_found. cbn [map fst] in N. inversion N as [|? ? N1 N2]. subst. destruct (sig_eq k k') eqn:E.
    + apply sig_eq_eq in E. subst k'. cbn [In map fst]. split.
      * intros [X|X]; [injection X as <- <-; right; split; [reflexivity|]; left; exists is0; auto|]. left. split; [|auto]. intros ->. apply N1. apply in_map_iff. exists (k, is). auto.
      * intros [[X [Y|Y]]|(-> & [(is' & [Y|Y] & ->)|(Y & _)])].
        -- injection Y as <- _. destruct X. reflexivity.
        -- auto.
        -- injection Y as <-. auto.
        -- destruct N1. apply in_map_iff. exists (k, is'). auto.
        -- destruct Y. auto.
    + assert (D : k <> k') by (intros ->; assert (Y : sig_eq k' k' = true) by (apply sig_eq_eq; reflexivity); congruence).
      cbn [In map fst]. rewrite (IH N2 x is). split.
      * intros [X|[[X Y]|(-> & [(is' & Y & ->)|(Y & ->)])]].
        -- injection X as <- <-. left. split; [congruence|auto].
        -- left. auto.
        -- right. split; [reflexivity|]. left. exists is'. auto.
        -- right. split; [reflexivity|]. right. split; [|reflexivity]. intros [Z|Z]; [congruence|exact (Y Z)].
      * intros [[X [Y|Y]]|(-> & [(is' & [Y|Y] & ->)|(Y & ->)])]; auto.
        -- injection Y as Y _. congruence.
        -- right. right. split; [reflexivity|]. left. exists is'. auto.
        -- right. right. split; [reflexivity|]. right. split; [|reflexivity]. intros Z. apply Y. auto.
Qed.
Lemma methods_app k l x : methods_of k (l ++ [x]) = methods_of k l ++ (if sig_eq k (fst x) then [snd x] else []).
Proof. unfold methods_of. rewrite flat_map_app. cbn [flat_map]. rewrite app_nil_r. reflexivity. Qed.

(** Whatever the hasher: there is one implementation for each trait and type of which there is a method, and it has exactly the methods of that trait for that type, in order;
    an implementation of the same trait for another type, or of another trait, is another one. *)
Theorem c100_one_each : forall l,
  NoDup (map fst (trait_impls hasher item l)) /\
  forall k is, In (k, is) (trait_impls hasher item l) <-> is <> [] /\ is = methods_of k l.
Proof.
  intros l. pattern l. apply rev_ind; clear l.
  - split; [constructor|]. intros k is. split; [intros []|]. intros [X Y]. destruct (X Y).
  - intros [k0 i] l [N P].
    assert (Q : trait_impls hasher item (l ++ [(k0, i)]) = push k0 i (trait_impls hasher item l)) by (unfold trait_impls; rewrite fold_left_app; reflexivity).
    rewrite Q. split; [apply push_nodup; exact N|]. intros k is. rewrite (push_items _ _ _ N), methods_app. cbn [fst snd]. destruct (sig_eq k k0) eqn:E.
    + apply sig_eq_eq in E. subst k0. split.
      * intros [[X _]|(_ & [(is' & I & ->)|(I & ->)])]; [destruct X; reflexivity| |].
        -- apply P in I as [_ <-]. split; [destruct is'; discriminate|reflexivity].
        -- split; [discriminate|]. destruct (methods_of k l) as [|y ys] eqn:M; [reflexivity|]. destruct I. apply in_map_iff. exists (k, y :: ys). split; [reflexivity|]. apply P. split; [discriminate|auto].
      * intros [_ ->]. right. split; [reflexivity|]. destruct (methods_of k l) as [|y ys] eqn:M.
        -- right. split; [|reflexivity]. intros I. apply in_map_iff in I as ([k1 is1] & <- & I). apply P in I as [I J]. cbn [fst] in M. rewrite M in J. exact (I J).
        -- left. exists (y :: ys). split; [|reflexivity]. apply P. split; [discriminate|auto].
    + assert (D : k <> k0) by (intros ->; assert (Y : sig_eq k0 k0 = true) by (apply sig_eq_eq; reflexivity); congruence). rewrite app_nil_r. split.
      * intros [[_ X]|(X & _)]; [apply P; exact X|destruct (D X)].
      * intros X. left. split; [exact D|]. apply P. exact X.
Qed.

(** The map which C41 uses for the implementations in a namespace, a list searched by equality of keys, is this one whatever the hasher, and equality is as it asks. *)
Theorem c100_as_listed : (forall a b, sig_eq a b = true <-> a = b) /\ forall l, trait_impls hasher item l = hm_all sig_eq (map Some l).
Proof.
  split; [apply sig_eq_eq|]. intros l. unfold trait_impls, hm_all.
  assert (P : forall k i m, push k i m = hm_push sig_eq k i m).
  { intros k i. induction m as [|[k' is] m IH]; [reflexivity|]. cbn [entry_push hm_push]. rewrite same_found, IH. reflexivity. }
  assert (Q : forall m, fold_left (fun m x => push (fst x) (snd x) m) l m = fold_left (fun m o => match o with Some (k, e) => hm_push sig_eq k e m | None => m end) (map Some l) m).
  { induction l as [|[k i] l IH]; intros m; [reflexivity|]. cbn [fold_left map fst snd]. rewrite P. apply IH. }
  apply Q.
Qed.
End Grouping.
Print Assumptions c100_as_listed.
Print Assumptions c100_equal.
Print Assumptions c100_hash.
Print Assumptions c100_one_each.

(** Two traits for one type and one trait for two, with texts which join to the same: with a hasher which makes the same of everything. *)
Example c100_case :
  let a := TraitSig "A" "Drop" "" in let b := TraitSig "AD" "rop" "" in let c := TraitSig "A" "autocxx :: moveit :: MakeCppStorage" "unsafe" in
  utf8 "AD" /\ trait_impls (fun _ => 0) string [(c, "allocate"); (a, "drop"); (b, "other"); (c, "free")] = [(c, ["allocate"; "free"]); (a, ["drop"]); (b, ["other"])].
Proof. cbn zeta. split; [vm_compute; intuition discriminate|]. vm_compute. reflexivity. Qed.
