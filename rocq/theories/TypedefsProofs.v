From Coq Require Import Relations.
From Verif Require Import Base QNamesModel ApiModel TypesModel TypedefsModel.

Lemma qget_in {A} k (v : A) m : qget k m = Some v -> In (k, v) m.
Proof.
  induction m as [|[k' v'] m IH]; cbn [qget]; [discriminate|].
  destruct (qn_eqb k k') eqn:E; [|intros H; right; auto].
  intros H; injection H as ->. apply qn_eqb_eq in E; subst; left; reflexivity.
Qed.
Lemma qget_none {A} k (m : list (qname * A)) : qget k m = None -> ~ In k (map fst m).
Proof.
  induction m as [|[k' v'] m IH]; cbn [qget map fst]; [intros _ []|].
  destruct (qn_eqb k k') eqn:E; [discriminate|]. apply qn_eqb_neq in E.
  intros H [X|X]; [congruence | exact (IH H X)].
Qed.
Lemma in_nodup_qget {A} k (v : A) m : NoDup (map fst m) -> In (k, v) m -> qget k m = Some v.
Proof.
  induction m as [|[k' v'] m IH]; cbn [qget map fst]; intros N; [intros []|]. inversion N; subst.
  intros [X|X].
  - injection X as -> ->. rewrite qn_eqb_refl. reflexivity.
  - destruct (qn_eqb k k') eqn:E; [|auto]. apply qn_eqb_eq in E; subst.
    exfalso. apply H1. apply in_map_iff. exists (k', v); auto.
Qed.
