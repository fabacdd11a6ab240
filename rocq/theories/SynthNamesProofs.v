From Verif Require Import Base ApiModel SynthNamesModel.

(** Splitting at the first occurrence of a separator [p +++ c]: unique when the separator does not
    already occur in what precedes, even overlapping it. *)
Lemma first_sep_split p ch a b c d :
  let sep := p +++ String ch "" in
  contains sep (a +++ p) = false -> contains sep (c +++ p) = false ->
  a +++ sep +++ b = c +++ sep +++ d -> a = c /\ b = d.
Proof.
  intros sep.
  assert (G : forall a b c d, contains sep (c +++ p) = false -> a +++ sep +++ b = c +++ sep +++ d ->
     String.length a < String.length c -> False).
  { clear a b c d. intros a b c d Hc E L.
    destruct (sapp_cases _ _ _ _ (eq_sym E)) as [[e [H1 H2]]|[e [H1 H2]]].
    - (* a is a prefix of c *)
      destruct e as [|x e]; [rewrite app_empty_r in H1; subst; lia|]. subst c.
      assert (X : contains sep ((a +++ String x e) +++ p) = true); [|congruence].
      apply contains_spec. exists a.
      (* sep is a prefix of [String x e +++ p] *)
      assert (P : exists t, String x e +++ p = sep +++ t).
      { assert (E2 : sep +++ b = (String x e +++ p) +++ (String ch "" +++ d)).
        { rewrite H2. unfold sep. rewrite !sapp_assoc. reflexivity. }
        destruct (sapp_cases _ _ _ _ (eq_sym E2)) as [[t [T1 T2]]|[t [T1 T2]]].
        - exists t. exact T1.
        - assert (Len : String.length sep = String.length p + 1) by (unfold sep; rewrite slen_app; reflexivity).
          rewrite T1 in Len. rewrite !slen_app in Len. cbn [String.length] in Len.
          assert (t = "") as -> by (destruct t; [reflexivity | cbn [String.length] in Len; lia]).
          exists "". rewrite app_empty_r. rewrite app_empty_r in T1. symmetry. exact T1. }
      destruct P as [t P]. exists t. rewrite sapp_assoc, P. reflexivity.
    - subst a. rewrite slen_app in L. lia. }
  intros Ha Hc E.
  assert (L : String.length a = String.length c).
  { destruct (Nat.lt_trichotomy (String.length a) (String.length c)) as [L|[L|L]]; [|exact L|].
    - elim (G a b c d Hc E L).
    - elim (G c d a b Ha (eq_sym E) L). }
  destruct (sapp_eq_len _ _ _ _ L E) as [-> E2]. split; [reflexivity|].
  apply sapp_inj_l in E2. exact E2.
Qed.

Lemma strip_suffix_spec suf s p : strip_suffix suf s = Some p -> s = p +++ suf.
Proof.
  revert p; induction s as [|c s IH]; intros p; cbn [strip_suffix].
  - destruct (String.eqb "" suf) eqn:E; [|discriminate]. apply String.eqb_eq in E. intros H; injection H as <-.
    exact E.
  - destruct (String.eqb (String c s) suf) eqn:E.
    + apply String.eqb_eq in E. intros H; injection H as <-. exact E.
    + destruct (strip_suffix suf s) as [q|] eqn:Q; [|discriminate]. intros H; injection H as <-.
      rewrite (IH q eq_refl). reflexivity.
Qed.
Lemma strip_suffix_app suf p : strip_suffix suf (p +++ suf) = Some p.
Proof.
  induction p as [|c p IH].
  - change ("" +++ suf) with suf. destruct suf; cbn [strip_suffix]; rewrite String.eqb_refl; reflexivity.
  - change (String c p +++ suf) with (String c (p +++ suf)). cbn [strip_suffix]. rewrite IH.
    destruct (String.eqb (String c (p +++ suf)) suf) eqn:E; [|reflexivity].
    apply String.eqb_eq in E. apply (f_equal String.length) in E. cbn [String.length] in E.
    rewrite slen_app in E. lia.
Qed.
