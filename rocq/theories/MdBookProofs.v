(** Lemmas for MdBookProps. *)
From Verif Require Import Base MdBookModel.
From Coq Require Import Ascii.

(** ** Lines *)
Definition no_lf (s : string) : Prop := all_chars (fun c => negb (Ascii.eqb c LF)) s = true.
Lemma split_ne sep s : split_at sep s <> [].
Proof. destruct s as [|c r]; cbn; [discriminate|]. destruct (Ascii.eqb c sep); [discriminate|]. destruct (split_at sep r); discriminate. Qed.
Lemma split_cons sep s : exists h t, split_at sep s = h :: t.
Proof. destruct (split_at sep s) as [|h t] eqn:E; [destruct (split_ne sep s E)|eauto]. Qed.
Lemma split_app sep x y : exists A p h R, split_at sep x = A ++ [p] /\ split_at sep y = h :: R /\ split_at sep (x +++ y) = A ++ (p +++ h) :: R.
Proof.
  destruct (split_cons sep y) as (h & R & Y). induction x as [|c x IH].
  - exists [], "", h, R. cbn. auto.
  - destruct IH as (A & p & h' & R' & X & Y' & XY). rewrite Y in Y'. injection Y' as <- <-. cbn. rewrite X, XY.
    destruct (Ascii.eqb c sep).
    + exists ("" :: A), p, h, R. auto.
    + destruct A as [|a A]; cbn; [exists [], (String c p), h, R | exists (String c a :: A), p, h, R]; auto.
Qed.
Lemma split_plain sep s : all_chars (fun c => negb (Ascii.eqb c sep)) s = true -> split_at sep s = [s].
Proof. induction s as [|c s IH]; cbn; [reflexivity|]. intros H. apply andb_true_iff in H as [H1 H2]. apply negb_true_iff in H1. rewrite H1, (IH H2). reflexivity. Qed.
Lemma split_no_lf s : Forall no_lf (split_at LF s).
Proof.
  induction s as [|c s IH]; cbn; [repeat constructor|]. destruct (Ascii.eqb c LF) eqn:E; [constructor; [reflexivity|exact IH]|].
  destruct (split_at LF s) as [|h t]; [repeat constructor; unfold no_lf; cbn; rewrite E; reflexivity|]. inversion IH; subst. constructor; [unfold no_lf in *; cbn; rewrite E; assumption|assumption].
Qed.
Lemma concat_cons (sep a b : string) l : String.concat sep (a :: b :: l) = a +++ sep +++ String.concat sep (b :: l).
Proof. reflexivity. Qed.
Lemma join_split s : join (split_at LF s) = s.
Proof.
  unfold join. induction s as [|c s IH]; [reflexivity|]. cbn [split_at]. destruct (split_cons LF s) as (h & t & E). rewrite E in *. destruct (Ascii.eqb c LF) eqn:C.
  - apply Ascii.eqb_eq in C. subst c. rewrite concat_cons, IH. reflexivity.
  - rewrite <- IH. destruct t; reflexivity.
Qed.
Lemma split_join l : l <> [] -> Forall no_lf l -> split_at LF (join l) = l.
Proof.
  unfold join. induction l as [|a l IH]; intros N F; [contradiction|]. inversion F as [|? ? Fa Fl]; subst. destruct l as [|b l]; [apply split_plain, Fa|].
  rewrite concat_cons. destruct (split_app LF a (newline +++ String.concat newline (b :: l))) as (A & p & h & R & X & Y & XY). rewrite XY.
  rewrite (split_plain _ a Fa) in X. destruct A as [|x [|]]; [|discriminate..]. injection X as <-. change (newline +++ ?z) with (String LF z) in Y. cbn [split_at] in Y.
  rewrite IH in Y by (discriminate || exact Fl). change (Ascii.eqb LF LF) with true in Y. injection Y as <- <-. cbn [app]. rewrite app_empty_r. reflexivity.
Qed.

(** ** Positions *)
(** How often [s] breaks the line, and how far its end is from the last break, [n] if there is none. *)
Fixpoint breaks (s : string) : nat := match s with EmptyString => 0 | String c r => (if Ascii.eqb c LF then 1 else 0) + breaks r end.
Fixpoint column (n : nat) (s : string) : nat := match s with EmptyString => n | String c r => if Ascii.eqb c LF then column 0 r else column (S n) r end.
Lemma breaks_split s A p : split_at LF s = A ++ [p] -> breaks s = List.length A.
Proof.
  revert A p. induction s as [|c s IH]; cbn; intros A p E.
  - destruct A as [|? [|]]; try discriminate. reflexivity.
  - destruct (Ascii.eqb c LF).
    + destruct A as [|a A]; [injection E as _ E; destruct (split_ne _ _ E)|]. injection E as _ E. cbn. rewrite (IH _ _ E). reflexivity.
    + destruct (split_cons LF s) as (h & t & S). rewrite S in E. destruct A as [|a A]; cbn in E.
      * injection E as _ ->. apply (IH [] h). exact S.
      * injection E as _ ->. change (List.length (a :: A)) with (List.length (h :: A)). apply (IH (h :: A) p). exact S.
Qed.
Lemma column_split s : forall n A p, split_at LF s = A ++ [p] -> column n s = match A with [] => n | _ => 0 end + String.length p.
Proof.
  induction s as [|c s IH]; cbn; intros n A p E.
  - destruct A as [|? [|]]; try discriminate. injection E as <-. cbn. lia.
  - destruct (Ascii.eqb c LF).
    + destruct A as [|a A]; [injection E as _ E; destruct (split_ne _ _ E)|]. injection E as _ E. rewrite (IH 0 _ _ E). destruct A; reflexivity.
    + destruct (split_cons LF s) as (h & t & S). rewrite S in E. destruct A as [|a A]; cbn in E.
      * injection E as <- ->. rewrite (IH (Datatypes.S n) [] h S). cbn. lia.
      * injection E as _ ->. rewrite (IH (Datatypes.S n) (h :: A) p S). reflexivity.
Qed.
Lemma substring_mid a b c : String.substring (String.length a) (String.length b) (a +++ b +++ c) = b.
Proof.
  induction a as [|x a IH]; cbn; [|exact IH]. induction b as [|y b IH]; cbn; [destruct c; reflexivity|]. rewrite IH. reflexivity.
Qed.
Lemma slice_mid a b c : slice (a +++ b +++ c) (String.length a) (String.length a + String.length b) = Some b.
Proof.
  unfold slice. rewrite !slen_app. replace (Nat.leb _ _) with true by (symmetry; apply Nat.leb_le; lia). replace (Nat.leb (_ + _) _) with true by (symmetry; apply Nat.leb_le; lia).
  cbn [andb]. replace (String.length a + String.length b - String.length a) with (String.length b) by lia. rewrite substring_mid. reflexivity.
Qed.
Lemma nth_app_mid {X} (A : list X) x R : nth_error (A ++ x :: R) (List.length A) = Some x.
Proof. rewrite nth_error_app2 by lia. rewrite Nat.sub_diag. reflexivity. Qed.
Lemma last_split sep s : exists A p, split_at sep s = A ++ [p].
Proof. destruct (split_cons sep s) as (h & t & E). rewrite E. exists (removelast (h :: t)), (last (h :: t) ""). apply app_removelast_last. discriminate. Qed.

Lemma extract_token body pre a t b post : body <> [] -> Forall no_lf body -> a <> LF -> b <> LF ->
  join body = pre +++ String a (t +++ String b post) ->
  extract_span body (Span (S (breaks pre)) (column 0 pre) (S (breaks (pre +++ String a (t +++ String b "")))) (column 0 (pre +++ String a (t +++ String b "")))) = Some t.
Proof.
  intros NE NL Na Nb J. pose proof (split_join body NE NL) as SB. rewrite J in SB.
  assert (EA : Ascii.eqb a LF = false) by (apply Ascii.eqb_neq, Na). assert (EB : Ascii.eqb b LF = false) by (apply Ascii.eqb_neq, Nb).
  assert (SC : forall z c, Ascii.eqb c LF = false -> forall h R, split_at LF z = h :: R -> split_at LF (String c z) = String c h :: R) by (intros z c Ec h R Ez; cbn; rewrite Ec, Ez; reflexivity).
  destruct (split_cons LF post) as (r0 & R & SR). pose proof (SC _ _ EB _ _ SR) as SBp.
  assert (SBe : split_at LF (String b "") = [String b ""]) by (cbn; rewrite EB; reflexivity).
  destruct (last_split LF pre) as (A & p & SP). destruct (last_split LF t) as (B & q & ST).
  assert (APP : forall x y X x0 h Y, split_at LF x = X ++ [x0] -> split_at LF y = h :: Y -> split_at LF (x +++ y) = X ++ (x0 +++ h) :: Y).
  { intros x y X x0 h Y Ex Ey. destruct (split_app LF x y) as (X' & x' & h' & Y' & E1 & E2 & ->). rewrite Ex in E1. rewrite Ey in E2. injection E2 as <- <-.
    apply app_inj_tail in E1 as [<- <-]. reflexivity. }
  pose proof (APP _ _ _ _ _ _ ST SBp) as S1. pose proof (APP _ _ _ _ _ _ ST SBe) as S2.
  destruct B as [|t0 M]; cbn [app] in *.
  - (* one line *)
    assert (Et : t = q) by (pose proof (join_split t) as JT; rewrite ST in JT; cbn in JT; congruence). subst q.
    pose proof (APP _ _ _ _ _ _ SP (SC _ _ EA _ _ S1)) as S3. pose proof (APP _ _ _ _ _ _ SP (SC _ _ EA _ _ S2)) as S4. rewrite S3 in SB. subst body.
    rewrite (breaks_split _ _ _ SP), (column_split _ 0 _ _ SP), (breaks_split _ A _ S4), (column_split _ 0 A _ S4).
    replace (match A with [] => 0 | _ => 0 end) with 0 by (destruct A; reflexivity). cbn [Nat.add].
    unfold extract_span. cbn [sp_line sp_col sp_end_line sp_end_col]. unfold minus at 1 2. cbn [Nat.leb]. rewrite !Nat.sub_succ, !Nat.sub_0_r.
    assert (L : String.length (p +++ String a (t +++ String b "")) = String.length p + S (String.length t) + 1) by (rewrite slen_app; cbn [String.length]; rewrite slen_app; cbn; lia).
    rewrite L. unfold minus. replace (Nat.leb 1 _) with true by (symmetry; apply Nat.leb_le; lia). rewrite Nat.eqb_refl, nth_app_mid.
    replace (String.length p + S (String.length t) + 1 - 1) with (String.length (p +++ String a "") + String.length t) by (rewrite slen_app; cbn; lia).
    replace (String.length p + 1) with (String.length (p +++ String a "")) by (rewrite slen_app; reflexivity).
    replace (p +++ String a (t +++ String b r0)) with ((p +++ String a "") +++ t +++ String b r0) by (rewrite sapp_assoc; reflexivity).
    apply slice_mid.
  - (* more *)
    pose proof (APP _ _ _ _ _ _ SP (SC _ _ EA _ _ S1)) as S3. pose proof (APP _ _ _ _ _ _ SP (SC _ _ EA _ _ S2)) as S4. rewrite S3 in SB. subst body.
    rewrite (breaks_split _ _ _ SP), (column_split _ 0 _ _ SP).
    assert (S5 : split_at LF (pre +++ String a (t +++ String b "")) = (A ++ (p +++ String a t0) :: M) ++ [q +++ String b ""]) by (rewrite S4, <- app_assoc; reflexivity).
    rewrite (breaks_split _ _ _ S5), (column_split _ 0 _ _ S5).
    replace (match A with [] => 0 | _ => 0 end) with 0 by (destruct A; reflexivity).
    replace (match A ++ (p +++ String a t0) :: M with [] => 0 | _ => 0 end) with 0 by (destruct A; reflexivity). cbn [Nat.add].
    unfold extract_span. cbn [sp_line sp_col sp_end_line sp_end_col]. unfold minus at 1 2. cbn [Nat.leb]. rewrite !Nat.sub_succ, !Nat.sub_0_r.
    assert (L : String.length (q +++ String b "") = String.length q + 1) by (rewrite slen_app; reflexivity). rewrite L.
    unfold minus. replace (Nat.leb 1 _) with true by (symmetry; apply Nat.leb_le; lia). rewrite Nat.add_sub. rewrite app_length. cbn [List.length].
    replace (Nat.eqb _ _) with false by (symmetry; apply Nat.eqb_neq; lia). rewrite nth_app_mid.
    assert (N2 : nth_error (A ++ (p +++ String a t0) :: M ++ (q +++ String b r0) :: R) (List.length A + S (List.length M)) = Some (q +++ String b r0)).
    { replace (A ++ (p +++ String a t0) :: M ++ (q +++ String b r0) :: R) with ((A ++ (p +++ String a t0) :: M) ++ (q +++ String b r0) :: R) by (rewrite <- app_assoc; reflexivity).
      replace (List.length A + S (List.length M)) with (List.length (A ++ (p +++ String a t0) :: M)) by (rewrite app_length; reflexivity). apply nth_app_mid. }
    rewrite N2. unfold slice_from.
    replace (slice (p +++ String a t0) _ _) with (Some t0).
    2:{ symmetry. replace (String.length p + 1) with (String.length (p +++ String a "")) by (rewrite slen_app; reflexivity).
        replace (p +++ String a t0) with ((p +++ String a "") +++ t0 +++ "") by (rewrite sapp_assoc, app_empty_r; reflexivity). rewrite <- (slice_mid (p +++ String a "") t0 "") at 1. f_equal. rewrite !slen_app. cbn. lia. }
    pose proof (slice_mid "" q (String b r0)) as SQ. cbn [String.length Nat.add String.append] in SQ. rewrite SQ.
    replace (Nat.leb _ _) with true by (symmetry; apply Nat.leb_le; lia). f_equal.
    replace (List.length A + S (List.length M) - (List.length A + 1)) with (List.length M) by lia.
    replace (A ++ (p +++ String a t0) :: M ++ (q +++ String b r0) :: R) with ((A ++ [p +++ String a t0]) ++ M ++ (q +++ String b r0) :: R) by (rewrite <- app_assoc; reflexivity).
    replace (List.length A + 1) with (List.length (A ++ [p +++ String a t0])) by (rewrite app_length; reflexivity). rewrite skipn_app, skipn_all, Nat.sub_diag. cbn [app skipn].
    rewrite firstn_app, firstn_all, Nat.sub_diag. cbn [firstn]. rewrite app_nil_r. rewrite <- (join_split t), ST. reflexivity.
Qed.
