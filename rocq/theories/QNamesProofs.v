(** Proofs about qualified names. *)
From Verif Require Import Base QNamesModel.

Definition no_colon (s : string) : bool := all_chars (fun c => negb (Ascii.eqb c ":")) s.

Lemma split_cc_nil acc : split_cc_aux acc "" = [acc].
Proof. reflexivity. Qed.
Lemma split_cc_sep acc r : split_cc_aux acc ("::" +++ r) = acc :: split_cc_aux "" r.
Proof. reflexivity. Qed.
Lemma split_cc_char acc c r : c <> ":"%char ->
  split_cc_aux acc (String c r) = split_cc_aux (acc +++ String c "") r.
Proof.
  intros H. destruct c as [[] [] [] [] [] [] [] []]; try reflexivity. elim H; reflexivity.
Qed.
Lemma split_cc_colon acc c r : c <> ":"%char ->
  split_cc_aux acc (String ":" (String c r)) = split_cc_aux ((acc +++ ":") +++ String c "") r.
Proof.
  intros H. destruct c as [[] [] [] [] [] [] [] []]; try reflexivity. elim H; reflexivity.
Qed.

Lemma split_cc_run s : no_colon s = true -> forall acc r,
  split_cc_aux acc (s +++ "::" +++ r) = (acc +++ s) :: split_cc_aux "" r.
Proof.
  induction s as [|c s IH]; intros H acc r.
  - cbn [String.append]. rewrite app_empty_r. reflexivity.
  - cbn [no_colon all_chars] in H. apply andb_true_iff in H. destruct H as [Hc Hs].
    change (String c s +++ "::" +++ r) with (String c (s +++ "::" +++ r)). rewrite split_cc_char.
    + rewrite IH by exact Hs. rewrite sapp_assoc. reflexivity.
    + intros ->. discriminate Hc.
Qed.
Lemma split_cc_last s : no_colon s = true -> forall acc, split_cc_aux acc s = [acc +++ s].
Proof.
  induction s as [|c s IH]; intros H acc.
  - rewrite app_empty_r. reflexivity.
  - cbn [no_colon all_chars] in H. apply andb_true_iff in H. destruct H as [Hc Hs].
    rewrite split_cc_char by (intros ->; discriminate Hc).
    rewrite IH by exact Hs. rewrite sapp_assoc. reflexivity.
Qed.
Lemma split_cc_join l : l <> [] -> forallb no_colon l = true -> split_cc (join "::" l) = l.
Proof.
  unfold split_cc. induction l as [|x l IH]; [congruence|]. intros _ H.
  cbn [forallb] in H. apply andb_true_iff in H. destruct H as [Hx Hl].
  destruct l as [|y l].
  - cbn [join]. rewrite split_cc_last by exact Hx. reflexivity.
  - change (join "::" (x :: y :: l)) with (x +++ "::" +++ join "::" (y :: l)).
    rewrite split_cc_run by exact Hx. rewrite IH; [reflexivity | discriminate | exact Hl].
Qed.

Lemma split_cc_nonempty_aux n : forall s acc, String.length s <= n -> split_cc_aux acc s <> [].
Proof.
  induction n as [|n IH]; intros s acc L.
  - destruct s; [discriminate | simpl in L; lia].
  - destruct s as [|c s]; [discriminate|].
    destruct (ascii_dec c ":") as [->|Hc].
    + destruct s as [|d s]; [discriminate|]. destruct (ascii_dec d ":") as [->|Hd].
      * discriminate.
      * rewrite split_cc_colon by exact Hd. apply IH. simpl in L |- *. lia.
    + rewrite split_cc_char by exact Hc. apply IH. simpl in L. lia.
Qed.
Lemma split_cc_nonempty s : split_cc s <> [].
Proof. eapply split_cc_nonempty_aux; eauto. Qed.
Lemma new_from_cpp_name_aux_some segs : forall ns, segs <> [] -> new_from_cpp_name_aux ns segs <> None.
Proof.
  induction segs as [|x segs IH]; intros ns H; [congruence|].
  destruct segs as [|y segs]; [discriminate|].
  cbn [new_from_cpp_name_aux]. destruct (String.eqb x ""); apply IH; discriminate.
Qed.
Lemma new_from_cpp_name_total s : new_from_cpp_name_opt s = Some (new_from_cpp_name s).
Proof.
  unfold new_from_cpp_name. destruct (new_from_cpp_name_opt s) as [q|] eqn:E; [reflexivity|].
  elim (new_from_cpp_name_aux_some (split_cc s) [] (split_cc_nonempty s) E).
Qed.

Lemma from_segments_aux_spec l x : forall ns, from_segments_aux ns (l ++ [x]) = Some (QN (ns ++ l) x).
Proof.
  induction l as [|y l IH]; intros ns; [cbn; now rewrite app_nil_r|].
  cbn [app]. destruct (l ++ [x]) eqn:E; [destruct l; discriminate|].
  change (from_segments_aux ns (y :: s :: l0)) with (from_segments_aux (ns ++ [y]) (s :: l0)).
  rewrite IH, <- app_assoc. reflexivity.
Qed.
Lemma from_segments_segment_iter q : from_segments (segment_iter q) = Some q.
Proof. unfold from_segments, segment_iter. rewrite from_segments_aux_spec. destruct q; reflexivity. Qed.
Lemma segment_iter_from_segments l q : from_segments l = Some q -> segment_iter q = l.
Proof.
  destruct l as [|x l _] using rev_ind; [discriminate|].
  unfold from_segments. rewrite from_segments_aux_spec. intros H; inversion H; reflexivity.
Qed.

Lemma new_from_aux_spec l x : (forall y, In y l -> y <> "") -> forall ns,
  new_from_cpp_name_aux ns (l ++ [x]) = Some (QN (ns ++ l) x).
Proof.
  induction l as [|y l IH]; intros H ns; [cbn; now rewrite app_nil_r|].
  cbn [app]. destruct (l ++ [x]) eqn:E; [destruct l; discriminate|].
  change (new_from_cpp_name_aux ns (y :: s :: l0))
    with (new_from_cpp_name_aux (if String.eqb y "" then ns else ns ++ [y]) (s :: l0)).
  assert (String.eqb y "" = false) as -> by (apply String.eqb_neq, H; left; reflexivity).
  rewrite IH, <- app_assoc by (intros z Hz; apply H; right; exact Hz). reflexivity.
Qed.

(** Segments that can occur in names. *)
Definition good_seg (s : string) : bool := negb (String.eqb s "") && no_colon s.
Definition good_name (q : qname) : bool := forallb good_seg (segment_iter q).

Lemma good_name_segs q : good_name q = true ->
  forallb no_colon (segment_iter q) = true /\ forall y, In y (segment_iter q) -> y <> "".
Proof.
  unfold good_name. rewrite !forallb_forall. intros H. split.
  - intros x Hx. apply H, andb_true_iff in Hx. apply Hx.
  - intros x Hx ->. apply H in Hx. discriminate.
Qed.

Lemma roundtrip_plain q : good_name q = true -> new_from_cpp_name (plain_cpp_name q) = q.
Proof.
  intros H. apply good_name_segs in H. destruct H as [H1 H2].
  unfold new_from_cpp_name, new_from_cpp_name_opt, plain_cpp_name.
  fold (segment_iter q). rewrite split_cc_join; [|unfold segment_iter; destruct (qn_ns q); discriminate | exact H1].
  unfold segment_iter. rewrite new_from_aux_spec; [destruct q; reflexivity|].
  intros y Hy. apply H2. unfold segment_iter. apply in_app_iff. auto.
Qed.

Lemma display_plain q : qn_display q = plain_cpp_name q.
Proof.
  unfold qn_display, plain_cpp_name. destruct q as [ns x]. cbn [qn_ns qn_item].
  induction ns as [|y ns IH]; [reflexivity|]. cbn [fold_right app].
  rewrite IH. destruct (ns ++ [x]) eqn:E; [destruct ns; discriminate | reflexivity].
Qed.
