(** C59: unqualifying a type removes namespaces and nothing else. *)
From Verif Require Import Base TypesModel TypesSpec UnqualifyModel UnqualifyProofs.

(** [t] and [u] are the same type expression except for the namespaces of the paths in them. *)
Inductive same_but_ns : ty -> ty -> Prop :=
| sb_path : forall l l' id args args', Forall2 same_but_ns args args' -> same_but_ns (TPath l id args) (TPath l' id args')
| sb_ref : forall m lt t u, same_but_ns t u -> same_but_ns (TRef m lt t) (TRef m lt u)
| sb_ptr : forall m t u, same_but_ns t u -> same_but_ns (TPtr m t) (TPtr m u)
| sb_array : forall t u n, same_but_ns t u -> same_but_ns (TArray t n) (TArray u n)
| sb_other : forall s, same_but_ns (TOther s) (TOther s)
| sb_nontype : forall s, same_but_ns (TNonType s) (TNonType s).

Inductive array_in : ty -> Prop :=
| ai_here : forall t n, array_in (TArray t n)
| ai_arg : forall l id args a, In a args -> array_in a -> array_in (TPath l id args)
| ai_ref : forall m lt t, array_in t -> array_in (TRef m lt t)
| ai_ptr : forall m t, array_in t -> array_in (TPtr m t).
Definition namespaced (t : ty) : Prop := exists l id, path_in l id t /\ l <> [].

Lemma same_refl t : same_but_ns t t.
Proof.
  induction t using ty_ind'; constructor; auto.
  induction H; constructor; auto.
Qed.

(** Structure is kept: only namespaces go. *)
Theorem c59_only_namespaces_removed : forall t, same_but_ns t (unqualify_type t).
Proof.
  induction t using ty_ind'; try (constructor; auto; fail).
  - rewrite unqualify_path. constructor. induction H; constructor; auto.
  - cbn. apply same_refl.
Qed.
Print Assumptions c59_only_namespaces_removed.

Theorem c59_idempotent : forall t, unqualify_type (unqualify_type t) = unqualify_type t.
Proof.
  induction t using ty_ind'; try reflexivity; try (cbn [unqualify_type]; f_equal; assumption).
  rewrite !unqualify_path. f_equal. rewrite map_map. apply map_ext_Forall. exact H.
Qed.
Print Assumptions c59_idempotent.

(** Two types that become equal differed in nothing but namespaces. *)
Theorem c59_identifies_only_namespaces : forall t u, unqualify_type t = unqualify_type u -> same_but_ns t u.
Proof.
  induction t using ty_ind'; intros u E.
  - rewrite unqualify_path in E. destruct u; try discriminate E. rewrite unqualify_path in E.
    injection E as -> E. constructor. revert args0 E. induction H as [|a args Ha H IH]; intros [|b bs] E; try discriminate E; constructor.
    + apply Ha. injection E. auto.
    + apply IH. injection E. auto.
  - destruct u; try discriminate E. injection E as -> -> E. constructor. apply IHt, E.
  - destruct u; try discriminate E. injection E as -> E. constructor. apply IHt, E.
  - destruct u; try discriminate E. injection E as -> ->. apply same_refl.
  - destruct u; try discriminate E. injection E as ->. constructor.
  - destruct u; try discriminate E. injection E as ->. constructor.
Qed.
Print Assumptions c59_identifies_only_namespaces.

(** When no two of the types in play share a final identifier (what the name check of C09 establishes),
    nothing is identified at all. *)
Theorem c59_injective_when_names_unique : forall (known : list string -> string -> Prop),
  (forall l l' id, known l id -> known l' id -> l = l') ->
  forall t u, (forall l id, path_in l id t -> known l id) -> (forall l id, path_in l id u -> known l id) ->
  unqualify_type t = unqualify_type u -> t = u.
Proof.
  intros known U t. induction t using ty_ind'; intros u KT KU E.
  - rewrite unqualify_path in E. destruct u as [l' id' args'| | | | |]; try discriminate E. rewrite unqualify_path in E.
    injection E as -> E.
    rewrite (U lead l' id'); [|apply KT; constructor|apply KU; constructor]. f_equal.
    assert (KT' : forall a, In a args -> forall l id, path_in l id a -> known l id) by (intros a Ha l id P; apply KT; eapply pi_arg; eauto).
    assert (KU' : forall a, In a args' -> forall l id, path_in l id a -> known l id) by (intros a Ha l id P; apply KU; eapply pi_arg; eauto).
    clear KT KU. revert args' E KU'. induction H as [|a args Ha H IH]; intros [|b bs] E KU'; try discriminate E; [reflexivity|].
    injection E as E1 E2. f_equal.
    + apply Ha; [apply KT'; left; reflexivity | apply KU'; left; reflexivity | exact E1].
    + apply IH; [intros; eapply KT'; [right; eassumption | eassumption] | exact E2 | intros; eapply KU'; [right; eassumption | eassumption]].
  - destruct u; try discriminate E. injection E as -> -> E. f_equal. apply IHt; [intros; apply KT; constructor; assumption | intros; apply KU; constructor; assumption | exact E].
  - destruct u; try discriminate E. injection E as -> E. f_equal. apply IHt; [intros; apply KT; constructor; assumption | intros; apply KU; constructor; assumption | exact E].
  - destruct u; try discriminate E. injection E as -> ->. reflexivity.
  - destruct u; try discriminate E. injection E as ->. reflexivity.
  - destruct u; try discriminate E. injection E as ->. reflexivity.
Qed.
Print Assumptions c59_injective_when_names_unique.

(** Full statement: no namespace is left anywhere. Missing: types with arrays in them, for which it is
    false (next theorem). *)
Theorem c59_no_namespace_left_partial : forall t, ~ array_in t -> ~ namespaced (unqualify_type t).
Proof.
  induction t using ty_ind'; intros NA (l & i & P & N).
  - rewrite unqualify_path in P. inversion P; subst; [congruence|].
    apply in_map_iff in H4. destruct H4 as (b & <- & Hb). rewrite Forall_forall in H.
    apply (H b Hb); [intros A; apply NA; eapply ai_arg; eauto | exists l, i; auto].
  - cbn in P. inversion P; subst. apply IHt; [intros A; apply NA; constructor; exact A | exists l, i; auto].
  - cbn in P. inversion P; subst. apply IHt; [intros A; apply NA; constructor; exact A | exists l, i; auto].
  - apply NA. constructor.
  - inversion P.
  - inversion P.
Qed.
Print Assumptions c59_no_namespace_left_partial.

(** The element type of an array behind a pointer keeps its namespace. *)
Theorem c59_array_element_refuted : exists t, namespaced (unqualify_type t).
Proof. exists (TPtr false (TArray (TPath ["ns"] "A" []) "3")), ["ns"], "A". split; [cbn; repeat constructor | discriminate]. Qed.
Print Assumptions c59_array_element_refuted.

(** The same for whole signatures: number, order, patterns and receivers stay. *)
Inductive same_arg : fnarg -> fnarg -> Prop :=
| sa_typed : forall p t u, same_but_ns t u -> same_arg (FTyped p t) (FTyped p u)
| sa_recv : forall s, same_arg (FReceiver s) (FReceiver s).
Inductive same_ret : ret_type -> ret_type -> Prop :=
| sr_none : same_ret RDefault RDefault
| sr_type : forall t u, same_but_ns t u -> same_ret (RType t) (RType u).
Theorem c59_signature : forall ps r,
  Forall2 same_arg ps (unqualify_params ps) /\ same_ret r (unqualify_ret_type r).
Proof.
  intros ps r. split.
  - induction ps as [|[p t|s] ps IH]; constructor; auto; constructor. apply c59_only_namespaces_removed.
  - destruct r; constructor. apply c59_only_namespaces_removed.
Qed.
Print Assumptions c59_signature.

(** Two classes [a::T] and [b::T] do become one, which is why uniqueness is needed. *)
Example c59_nonvacuous :
  let t := TRef true (Some "a") (TPath ["cxx"] "UniquePtr" [TPath ["root"; "n"] "T" [TNonType "'a"]; TPtr true (TPath ["n"] "U" [])]) in
  unqualify_type t = TRef true (Some "a") (TPath [] "UniquePtr" [TPath [] "T" [TNonType "'a"]; TPtr true (TPath [] "U" [])]) /\
  namespaced t /\ ~ array_in t /\
  unqualify_type (TPath ["a"] "T" []) = unqualify_type (TPath ["b"] "T" []) /\ TPath ["a"] "T" [] <> TPath ["b"] "T" [].
Proof.
  cbn zeta. split; [reflexivity|]. split; [|split; [|split; [reflexivity | discriminate]]].
  - exists ["cxx"], "UniquePtr". split; [repeat constructor | discriminate].
  - assert (L : forall l id args, (forall a, In a args -> ~ array_in a) -> ~ array_in (TPath l id args))
      by (intros l id args F A; inversion A; subst; eapply F; eauto).
    intros A. inversion A; subst. revert H0. apply L. intros a [<-|[<-|[]]].
    + apply L. intros a [<-|[]] H; inversion H.
    + intros H; inversion H; subst. revert H1. apply L. intros a [].
Qed.
