(** The exact language of types accepted in exported functions. *)
From Verif Require Import Base QNamesModel ApiModel TypesModel TypesSpec UnqualifyModel ExternFunModel.

(** A nameable type: one identifier, possibly behind [root::] or [output::], without arguments and
    other than [Self]. *)
Inductive simple : ty -> string -> Prop :=
| sim_plain : forall id, id <> "Self" -> id <> "root" -> id <> "output" -> simple (TPath [] id []) id
| sim_mod : forall m id, m = "root" \/ m = "output" -> id <> "Self" -> simple (TPath [m] id []) id.
(** What may stand for a parameter or result, and which type it uses. *)
Inductive exportable : ty -> string -> Prop :=
| exp_val : forall id, simple (TPath [] id []) id -> exportable (TPath [] id []) id
| exp_ref : forall lt t id, simple t id -> exportable (TRef false lt t) id
| exp_pin : forall lt t id, simple t id -> exportable (TPath [] "Pin" [TRef true lt t]) id
| exp_box : forall t id, simple t id -> exportable (TPath [] "Box" [t]) id
| exp_vec : forall t id, simple t id -> exportable (TPath [] "Vec" [t]) id.

Lemma add_path_spec l i a deps d :
  add_path_to_deps l i a deps = XOk d <-> exists id, simple (TPath l i a) id /\ d = qinsert (QN [] id) deps.
Proof.
  unfold add_path_to_deps. split.
  - destruct a; [|discriminate]. destruct (path_name l i) as [q|] eqn:P; [|discriminate].
    apply (path_name_spec l i []) in P. destruct q as [ns it]. cbn [qn_ns qn_item].
    destruct ns; [|discriminate]. destruct (String.eqb it "Self") eqn:E; [discriminate|]. apply String.eqb_neq in E.
    intros H. injection H as <-. exists it. split; [|reflexivity].
    inversion P; subst; [constructor; assumption | constructor; cbn in *; assumption].
  - intros (id & S & ->).
    assert (P : path_name l i = Some (QN [] id) /\ a = [] /\ id <> "Self").
    { inversion S; subst; (split; [apply (path_name_spec _ _ []); constructor; assumption | split; [reflexivity | assumption]]). }
    destruct P as (-> & -> & N). cbn [qn_ns qn_item]. apply String.eqb_neq in N. rewrite N. reflexivity.
Qed.

Lemma add_type_spec t deps d :
  add_type_to_deps t deps = XOk d <-> exists id, exportable t id /\ d = qinsert (QN [] id) deps.
Proof.
  split.
  - destruct t as [[|l0 l] id [|a more]|[] lt u|m u|u n|s|s]; cbn [add_type_to_deps]; try discriminate.
    + intros H. apply add_path_spec in H. destruct H as (x & S & ->).
      exists x. split; [|reflexivity]. inversion S; subst. constructor. exact S.
    + destruct (String.eqb id "Pin") eqn:E.
      * apply String.eqb_eq in E; subst. destruct more; [|discriminate].
        destruct a as [| [] lt [l i b| | | | |] | | | |]; try discriminate. intros H. apply add_path_spec in H.
        destruct H as (x & S & ->). exists x. split; [constructor; exact S | reflexivity].
      * destruct (String.eqb id "Box" || String.eqb id "Vec") eqn:E'; [|discriminate].
        destruct more; [|discriminate]. destruct a as [l i b| | | | |]; try discriminate. intros H. apply add_path_spec in H.
        destruct H as (x & S & ->). exists x. split; [|reflexivity].
        apply orb_true_iff in E'. rewrite !String.eqb_eq in E'. destruct E'; subst; constructor; exact S.
    + destruct u as [l i b| | | | |]; try discriminate. intros H. apply add_path_spec in H.
      destruct H as (x & S & ->). exists x. split; [constructor; exact S | reflexivity].
  - intros (id & E & ->). inversion E as [? S|lt u ? S|lt u ? S|u ? S|u ? S]; subst.
    + cbn [add_type_to_deps]. apply add_path_spec. eauto.
    + inversion S; subst; cbn [add_type_to_deps]; apply add_path_spec; eauto.
    + inversion S; subst; cbn [add_type_to_deps]; rewrite String.eqb_refl; apply add_path_spec; eauto.
    + inversion S; subst; cbn [add_type_to_deps]; apply add_path_spec; eauto.
    + inversion S; subst; cbn [add_type_to_deps]; apply add_path_spec; eauto.
Qed.
