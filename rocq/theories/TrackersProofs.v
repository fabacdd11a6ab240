From Verif Require Import Base TrackersModel.

(** ** Overloads *)
Definition oreq_eq_dec (a b : overload_req) : {a = b} + {a <> b}.
Proof.
  decide equality; [apply string_dec | decide equality; apply string_dec | apply list_eq_dec, string_dec].
Defined.
Arguments oreq_eq_dec : simpl never.

(** The count stored for a request's key. *)
Definition ot_count (t : overload_tracker) (ty : option string) (name : string) : nat :=
  match ty with
  | Some ty => match sget ty (by_type t) with Some r => count_of name r | None => 0 end
  | None => count_of name (by_fn t)
  end.
Definition ocount (ts : trackers) (r : overload_req) : nat :=
  match qget (QN (or_ns r) "") ts with Some t => ot_count t (or_ty r) (or_name r) | None => 0 end.
Definition render (name : string) (k : nat) : string := if k =? 0 then name else name +++ dec k.

Lemma count_of_sset k v k' o : count_of k' (sset k v o) = if String.eqb k' k then v else count_of k' o.
Proof.
  unfold count_of. destruct (String.eqb_spec k' k) as [->|N].
  - now rewrite sget_sset_same.
  - now rewrite sget_sset_other by exact N.
Qed.

Lemma ot_get_name_spec t ty name :
  snd (ot_get_name t ty name) = render name (ot_count t ty name) /\
  forall ty' name', ot_count (fst (ot_get_name t ty name)) ty' name' =
    (if oreq_eq_dec (OReq [] ty name) (OReq [] ty' name') then 1 else 0) + ot_count t ty' name'.
Proof.
  unfold ot_get_name, take_name. destruct ty as [ty|]; cbn [fst snd ot_count by_fn by_type].
  - split.
    + unfold render. destruct (sget ty (by_type t)); reflexivity.
    + intros [ty'|] name'; cbn [ot_count by_fn by_type].
      * destruct (string_dec ty' ty) as [->|N].
        -- rewrite sget_sset_same, count_of_sset.
           destruct (oreq_eq_dec _ _) as [E|E].
           ++ inversion E; subst. rewrite String.eqb_refl. destruct (sget ty (by_type t)); reflexivity.
           ++ assert (N : String.eqb name' name = false) by (apply String.eqb_neq; congruence). rewrite N.
              destruct (sget ty (by_type t)); reflexivity.
        -- rewrite sget_sset_other by exact N. destruct (oreq_eq_dec _ _) as [E|E]; [congruence | reflexivity].
      * destruct (oreq_eq_dec _ _) as [E|E]; [congruence | reflexivity].
  - split; [reflexivity|]. intros [ty'|] name'; cbn [ot_count by_fn by_type].
    + destruct (oreq_eq_dec _ _) as [E|E]; [congruence | reflexivity].
    + rewrite count_of_sset. destruct (oreq_eq_dec _ _) as [E|E].
      * inversion E; subst. rewrite String.eqb_refl. reflexivity.
      * assert (N : String.eqb name' name = false) by (apply String.eqb_neq; congruence). rewrite N. reflexivity.
Qed.
Lemma overload_step_spec ts r :
  snd (overload_step ts r) = render (or_name r) (ocount ts r) /\
  forall r', ocount (fst (overload_step ts r)) r' = (if oreq_eq_dec r r' then 1 else 0) + ocount ts r'.
Proof.
  unfold overload_step, ocount.
  set (t := match qget (QN (or_ns r) "") ts with Some t => t | None => ot_empty end).
  assert (T := ot_get_name_spec t (or_ty r) (or_name r)).
  destruct (ot_get_name t (or_ty r) (or_name r)) as [t' out]. cbn [fst snd] in *. destruct T as [T1 T2].
  assert (E0 : forall ty n, ot_count ot_empty ty n = 0) by (intros [|]; reflexivity).
  split.
  - rewrite T1. unfold t. destruct (qget (QN (or_ns r) "") ts); [reflexivity | now rewrite E0].
  - intros r'. destruct (list_eq_dec string_dec (or_ns r') (or_ns r)) as [E|N].
    + rewrite E, qget_qset_same, T2. f_equal.
      * destruct r as [a b c], r' as [a' b' c']; simpl in *; subst.
        repeat match goal with |- context [oreq_eq_dec ?x ?y] => destruct (oreq_eq_dec x y) end;
          first [reflexivity | congruence].
      * unfold t. destruct (qget (QN (or_ns r) "") ts); [reflexivity | now rewrite E0].
    + rewrite qget_qset_other by congruence. destruct (oreq_eq_dec r r'); [congruence | reflexivity].
Qed.

(** The tracker's outputs: each request gets its name rendered with the number of
    equal requests before it. *)
Fixpoint overload_spec (before : list overload_req) (rs : list overload_req) : list string :=
  match rs with
  | [] => []
  | r :: rest => render (or_name r) (count_occ oreq_eq_dec before r) :: overload_spec (r :: before) rest
  end.
Lemma overload_run_spec rs : forall ts before,
  (forall r, ocount ts r = count_occ oreq_eq_dec before r) ->
  snd (overload_run ts rs) = overload_spec before rs.
Proof.
  induction rs as [|r rs IH]; intros ts before H; [reflexivity|].
  cbn [overload_run overload_spec]. assert (T := overload_step_spec ts r).
  destruct (overload_step ts r) as [ts1 o]. cbn [fst snd] in T. destruct T as [T1 T2].
  specialize (IH ts1 (r :: before)). destruct (overload_run ts1 rs) as [ts2 os]. cbn [snd] in *.
  rewrite T1, H, IH; [reflexivity|]. intros r'. rewrite T2, H. cbn [count_occ].
  destruct (oreq_eq_dec r r'); reflexivity.
Qed.
Lemma overload_spec_length before rs : length (overload_spec before rs) = length rs.
Proof. revert before; induction rs; intros; simpl; auto. Qed.
Lemma overload_spec_nth rs : forall before i r, nth_error rs i = Some r ->
  nth_error (overload_spec before rs) i =
  Some (render (or_name r) (count_occ oreq_eq_dec before r + count_occ oreq_eq_dec (firstn i rs) r)).
Proof.
  induction rs as [|x rs IH]; intros before i r H; [destruct i; discriminate|].
  destruct i as [|i]; simpl in H |- *.
  - inversion H; subst. now rewrite Nat.add_0_r.
  - rewrite (IH (x :: before) i r H). cbn [count_occ].
    destruct (oreq_eq_dec x r); do 2 f_equal; lia.
Qed.
Lemma count_occ_firstn_lt rs : forall i j r, i < j -> nth_error rs i = Some r ->
  count_occ oreq_eq_dec (firstn i rs) r < count_occ oreq_eq_dec (firstn j rs) r.
Proof.
  induction rs as [|x rs IH]; intros i j r L H; [destruct i; discriminate|].
  destruct j as [|j]; [lia|]. destruct i as [|i]; simpl in H |- *.
  - inversion H; subst. destruct (oreq_eq_dec r r); [lia | congruence].
  - assert (i < j) by lia. specialize (IH i j r H0 H). destruct (oreq_eq_dec x r); lia.
Qed.

(** Rendering is injective unless one name extends the other by digits. *)
Lemma render_inj n n' k k' : render n k = render n' k' ->
  (n = n' /\ k = k') \/
  (exists d, d <> "" /\ all_chars is_digit d = true /\ (n = n' +++ d \/ n' = n +++ d)).
Proof.
  unfold render. destruct (Nat.eqb_spec k 0) as [->|Hk], (Nat.eqb_spec k' 0) as [->|Hk']; intros E.
  - auto.
  - right. exists (dec k'). split; [apply dec_nonempty | split; [apply dec_digits | auto]].
  - right. exists (dec k). split; [apply dec_nonempty | split; [apply dec_digits | auto]].
  - destruct (sapp_cases _ _ _ _ E) as [[t [Ea Ed]]|[t [Ea Ed]]].
    + destruct t as [|c t].
      * left. rewrite app_empty_r in Ea. split; [exact Ea|]. apply dec_inj. symmetry. exact Ed.
      * right. exists (String c t). split; [discriminate|]. split; [|auto].
        assert (D := dec_digits k'). rewrite Ed, all_chars_app in D. apply andb_true_iff in D. apply D.
    + destruct t as [|c t].
      * left. rewrite app_empty_r in Ea. split; [symmetry; exact Ea|]. apply dec_inj. exact Ed.
      * right. exists (String c t). split; [discriminate|]. split; [|auto].
        assert (D := dec_digits k). rewrite Ed, all_chars_app in D. apply andb_true_iff in D. apply D.
Qed.

(** ** Bridge names *)
Inductive btag := As (s : string) | Num (p : string) (k : nat).
Definition tag_str (t : btag) : string :=
  match t with As s => s | Num p k => p +++ "_autocxx" +++ dec k end.
Definition bridge_tag (cs : offsets) (r : bridge_req) : btag :=
  if count_of (bridge_found r) cs =? 0 then As (bridge_found r)
  else if count_of (bridge_prefix r) cs =? 0 then As (bridge_prefix r)
  else Num (bridge_prefix r) (count_of (bridge_prefix r) cs).
Lemma bridge_step_tag cs r : snd (bridge_step cs r) = tag_str (bridge_tag cs r).
Proof.
  unfold bridge_step, bridge_tag. destruct (count_of (bridge_found r) cs =? 0); [reflexivity|].
  destruct (count_of (bridge_prefix r) cs =? 0); reflexivity.
Qed.
Fixpoint bridge_tags (cs : offsets) (rs : list bridge_req) : list btag :=
  match rs with [] => [] | r :: rest => bridge_tag cs r :: bridge_tags (fst (bridge_step cs r)) rest end.
Lemma bridge_run_tags rs : forall cs, snd (bridge_run cs rs) = map tag_str (bridge_tags cs rs).
Proof.
  induction rs as [|r rs IH]; intros cs; [reflexivity|]. cbn [bridge_run bridge_tags map].
  rewrite <- bridge_step_tag, <- IH. destruct (bridge_step cs r) as [cs1 o]. cbn [fst snd].
  destruct (bridge_run cs1 rs); reflexivity.
Qed.

(** Tags already given out in state [cs]. *)
Definition tag_used (cs : offsets) (t : btag) : Prop :=
  match t with As s => 1 <= count_of s cs | Num p k => k < count_of p cs end.
Lemma bridge_tag_fresh cs r : ~ tag_used cs (bridge_tag cs r).
Proof.
  unfold bridge_tag. destruct (count_of (bridge_found r) cs) eqn:E1; simpl; [lia|].
  destruct (count_of (bridge_prefix r) cs) eqn:E2; simpl; lia.
Qed.
Lemma bridge_step_mono cs r s : count_of s cs <= count_of s (fst (bridge_step cs r)).
Proof.
  unfold bridge_step. destruct (count_of (bridge_found r) cs =? 0) eqn:E1; cbn [fst]; rewrite count_of_sset.
  - apply Nat.eqb_eq in E1. destruct (String.eqb_spec s (bridge_found r)) as [->|]; lia.
  - destruct (String.eqb_spec s (bridge_prefix r)) as [->|]; lia.
Qed.
Lemma tag_used_mono cs r t : tag_used cs t -> tag_used (fst (bridge_step cs r)) t.
Proof. destruct t as [s|p k]; simpl; intros H; [assert (M := bridge_step_mono cs r s) | assert (M := bridge_step_mono cs r p)]; lia. Qed.
Lemma bridge_tag_used cs r : tag_used (fst (bridge_step cs r)) (bridge_tag cs r).
Proof.
  unfold bridge_tag, bridge_step. destruct (count_of (bridge_found r) cs =? 0); cbn [fst].
  - simpl. rewrite count_of_sset, String.eqb_refl. lia.
  - destruct (count_of (bridge_prefix r) cs =? 0); simpl; rewrite count_of_sset, String.eqb_refl; lia.
Qed.
Lemma bridge_tags_fresh rs : forall cs t, In t (bridge_tags cs rs) -> ~ tag_used cs t.
Proof.
  induction rs as [|r rs IH]; intros cs t H; [destruct H|]. cbn [bridge_tags] in H.
  destruct H as [<-|H]; [apply bridge_tag_fresh|]. intros U. eapply IH; [exact H|]. apply tag_used_mono, U.
Qed.
Lemma bridge_tags_nodup rs : forall cs, NoDup (bridge_tags cs rs).
Proof.
  induction rs as [|r rs IH]; intros cs; cbn [bridge_tags]; constructor; [|apply IH].
  intros H. apply bridge_tags_fresh in H. apply H, bridge_tag_used.
Qed.
Lemma num_inj p k p' k' : tag_str (Num p k) = tag_str (Num p' k') -> p = p' /\ k = k'.
Proof.
  simpl. intros H.
  assert (E : (p +++ "_autocx") +++ String "x" (dec k) = (p' +++ "_autocx") +++ String "x" (dec k'))
    by (rewrite !sapp_assoc; exact H).
  apply digits_split in E; auto using dec_digits. destruct E as (E1 & _ & E2).
  apply sapp_inj_r in E1. apply dec_inj in E2. auto.
Qed.

(** Names which cannot be confused with numbered ones. *)
Definition unnumbered (s : string) : Prop := forall a k, s <> a +++ "autocxx" +++ dec k.
Lemma any_us_autocxx k : any_char (Ascii.eqb "_") ("autocxx" +++ dec k) = false.
Proof.
  rewrite any_char_app. simpl. assert (D := dec_digits k). induction (dec k) as [|c s IH]; [reflexivity|].
  cbn [all_chars any_char] in *. apply andb_true_iff in D. destruct D as [D1 D2]. rewrite (IH D2).
  destruct (Ascii.eqb_spec "_" c) as [<-|]; [discriminate D1 | reflexivity].
Qed.
Lemma prefixed_unnumbered x f : unnumbered f -> forall a k, x +++ "_" +++ f <> a +++ "_autocxx" +++ dec k.
Proof.
  intros U a k E.
  assert (E' : (x +++ "_") +++ f = (a +++ "_") +++ "autocxx" +++ dec k) by (rewrite !sapp_assoc; exact E).
  destruct (sapp_cases _ _ _ _ E') as [[t [Ea Ed]]|[t [Ea Ed]]].
  - destruct t as [|c t]; [apply (U "" k); symmetry; exact Ed|].
    (* the cut after "_" lies strictly inside "autocxxN", which has no "_" *)
    assert (A := any_us_autocxx k). rewrite Ed, any_char_app in A. apply orb_false_iff in A. destruct A as [A _].
    assert (T : exists t', String c t = t' +++ "_").
    { assert (E2 : x +++ "_" = (a +++ "_") +++ String c t) by exact Ea.
      destruct (sapp_cases _ _ _ _ E2) as [[u [_ Eu]]|[u [_ Eu]]]; [exists u; exact Eu|].
      destruct u as [|d u]; simpl in Eu; inversion Eu; subst.
      - exists "". reflexivity.
      - destruct u; discriminate. }
    destruct T as [t' Et]. rewrite Et, any_char_app in A. simpl in A. rewrite orb_true_r in A. discriminate.
  - apply (U t k). exact Ed.
Qed.
Lemma unnumbered_found r : unnumbered (br_name r) -> unnumbered (bridge_found r).
Proof.
  unfold bridge_found. destruct (String.eqb_spec (br_name r) "new") as [_|]; [|auto].
  intros _ a k E.
  assert (D := dec_digits k). assert (N := dec_nonempty k).
  assert (X : "new_autocxx" = (a +++ "autocxx") +++ dec k) by (rewrite sapp_assoc; exact E).
  assert (L : ends_with (dec k) "new_autocxx" = true) by (apply ends_with_spec; eexists; exact X).
  clear - L D N. destruct (dec k) as [|c s]; [congruence|].
  cbn [ends_with] in L. cbn [all_chars] in D.
  repeat (apply orb_true_iff in L; destruct L as [L|L]; [apply String.eqb_eq in L; inversion L; subst; discriminate D|]).
  discriminate.
Qed.
Lemma join_snoc sep l x : join sep (l ++ [x]) = match l with [] => x | _ => join sep l +++ sep +++ x end.
Proof.
  induction l as [|y l IH]; [reflexivity|]. destruct l as [|z l]; [reflexivity|].
  change ((y :: z :: l) ++ [x]) with (y :: (z :: l) ++ [x]).
  change (join sep (y :: (z :: l) ++ [x])) with (y +++ sep +++ join sep ((z :: l) ++ [x])).
  rewrite IH. change (join sep (y :: z :: l)) with (y +++ sep +++ join sep (z :: l)).
  rewrite !sapp_assoc. reflexivity.
Qed.
Lemma prefix_shape r : bridge_prefix r = bridge_found r \/ exists x, bridge_prefix r = x +++ "_" +++ bridge_found r.
Proof.
  unfold bridge_prefix. rewrite app_assoc, join_snoc.
  destruct (br_ns r ++ _); [left; reflexivity | right; eexists; reflexivity].
Qed.
Definition as_ok (t : btag) : Prop :=
  match t with As s => forall a k, s <> a +++ "_autocxx" +++ dec k | Num _ _ => True end.
Lemma found_ok r : unnumbered (br_name r) -> as_ok (As (bridge_found r)).
Proof.
  intros U a k E. apply unnumbered_found in U. apply (U (a +++ "_") k). rewrite sapp_assoc. exact E.
Qed.
Lemma bridge_tag_ok cs r : unnumbered (br_name r) -> as_ok (bridge_tag cs r).
Proof.
  intros U. unfold bridge_tag. destruct (count_of (bridge_found r) cs =? 0); [apply found_ok, U|].
  destruct (count_of (bridge_prefix r) cs =? 0); [|exact I].
  destruct (prefix_shape r) as [E|[x E]]; rewrite E; [apply found_ok, U|].
  intros a k. apply prefixed_unnumbered, unnumbered_found, U.
Qed.
Lemma bridge_tags_ok rs : (forall r, In r rs -> unnumbered (br_name r)) ->
  forall cs t, In t (bridge_tags cs rs) -> as_ok t.
Proof.
  induction rs as [|r rs IH]; intros U cs t H; [destruct H|]. cbn [bridge_tags] in H.
  destruct H as [<-|H]; [apply bridge_tag_ok, U; left; reflexivity|].
  eapply IH; [intros r' Hr; apply U; right; exact Hr | exact H].
Qed.
Lemma NoDup_map_inj {A B} (f : A -> B) l :
  (forall x y, In x l -> In y l -> f x = f y -> x = y) -> NoDup l -> NoDup (map f l).
Proof.
  induction l as [|a l IH]; intros H N; simpl; constructor; inversion N; subst.
  - intros Hi. apply in_map_iff in Hi. destruct Hi as [b [E Hb]]. assert (b = a) by (apply H; simpl; auto). subst. auto.
  - apply IH; auto. intros x y Hx Hy. apply H; simpl; auto.
Qed.
Lemma bridge_run_nodup rs cs : (forall r, In r rs -> unnumbered (br_name r)) -> NoDup (snd (bridge_run cs rs)).
Proof.
  intros U. rewrite bridge_run_tags. apply NoDup_map_inj; [|apply bridge_tags_nodup].
  intros x y Hx Hy E. assert (Ox := bridge_tags_ok rs U cs x Hx). assert (Oy := bridge_tags_ok rs U cs y Hy).
  destruct x as [s|p k], y as [s'|p' k'].
  - simpl in E. now rewrite E.
  - elim (Ox p' k'). exact E.
  - elim (Oy p k). symmetry. exact E.
  - apply num_inj in E. destruct E; subst; reflexivity.
Qed.

Lemma contains_us_ne_new s : contains "_" s = true -> s <> "new".
Proof. intros H ->. discriminate. Qed.
Lemma bridge_not_new cs r : snd (bridge_step cs r) <> "new".
Proof.
  rewrite bridge_step_tag.
  assert (F : bridge_found r <> "new").
  { unfold bridge_found. destruct (String.eqb_spec (br_name r) "new"); [discriminate | assumption]. }
  unfold bridge_tag. destruct (count_of (bridge_found r) cs =? 0); [exact F|].
  assert (P : bridge_prefix r <> "new").
  { destruct (prefix_shape r) as [E|[x E]]; rewrite E; [exact F|].
    apply contains_us_ne_new, contains_spec. exists x, (bridge_found r). reflexivity. }
  destruct (count_of (bridge_prefix r) cs =? 0); [exact P|].
  apply contains_us_ne_new, contains_spec. simpl. exists (bridge_prefix r), ("autocxx" +++ dec (count_of (bridge_prefix r) cs)).
  reflexivity.
Qed.

(** ** Wrapper names *)
Lemma us_end p : ends_with "_" p = true <-> exists a, p = a +++ "_".
Proof. apply ends_with_spec. Qed.
Lemma wrapper_inj h p q : wrapper_name h p = wrapper_name h q -> p = q \/ p = q +++ "_" \/ q = p +++ "_".
Proof.
  unfold wrapper_name, uniquify_name_per_mod. intros E.
  rewrite !sapp_assoc in E.
  assert (E1 : (p +++ (if ends_with "_" p then "" else "_")) = (q +++ (if ends_with "_" q then "" else "_"))).
  { apply (sapp_inj_r _ _ ("autocxx_wrapper" +++ "_" +++ h)). rewrite !sapp_assoc. exact E. }
  destruct (ends_with "_" p), (ends_with "_" q); rewrite ?app_empty_r in E1; auto.
  left. apply sapp_inj_r in E1. exact E1.
Qed.
