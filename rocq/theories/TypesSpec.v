(** What type expressions name, stated without the model's functions. *)
From Verif Require Import Base QNamesModel ApiModel TypesModel.

(** What a type expression names: a path, with the [root] or [output] module left out. *)
Inductive refers_to : ty -> qname -> Prop :=
| ref_module : forall m ns id args, m = "root" \/ m = "output" -> refers_to (TPath (m :: ns) id args) (QN ns id)
| ref_plain : forall ns id args, hd id ns <> "root" -> hd id ns <> "output" -> refers_to (TPath ns id args) (QN ns id).

(** [type A = root;] is not something bindgen emits; the code panics on it. *)
Definition bare_module (t : ty) : Prop := exists m args, t = TPath [] m args /\ (m = "root" \/ m = "output").

(** [lead::id] occurs in [t] at any depth. *)
Inductive path_in : list string -> string -> ty -> Prop :=
| pi_here : forall l id args, path_in l id (TPath l id args)
| pi_arg : forall l id l' id' args a, In a args -> path_in l id a -> path_in l id (TPath l' id' args)
| pi_ref : forall l id m lt t, path_in l id t -> path_in l id (TRef m lt t)
| pi_ptr : forall l id m t, path_in l id t -> path_in l id (TPtr m t)
| pi_array : forall l id t n, path_in l id t -> path_in l id (TArray t n).

Lemma from_segments_aux_snoc ns l x : from_segments_aux ns (l ++ [x]) = Some (QN (ns ++ l) x).
Proof.
  revert ns; induction l as [|a l IH]; intros ns; cbn [app].
  - cbn. rewrite app_nil_r. reflexivity.
  - change (from_segments_aux ns (a :: (l ++ [x]))) with
      (match l ++ [x] with [] => Some (QN ns a) | _ => from_segments_aux (ns ++ [a]) (l ++ [x]) end).
    destruct (l ++ [x]) eqn:E; [destruct l; discriminate|]. rewrite IH, <- app_assoc. reflexivity.
Qed.

Lemma path_name_cases lead id :
  path_name lead id =
    match lead with
    | [] => if String.eqb id "root" || String.eqb id "output" then None else Some (QN [] id)
    | f :: r => Some (QN (if String.eqb f "root" || String.eqb f "output" then r else lead) id)
    end.
Proof.
  unfold path_name, from_type_path, segs, from_segments. destruct lead as [|f r]; cbn [app].
  - destruct (_ || _); [reflexivity|]. exact (from_segments_aux_snoc [] [] id).
  - destruct (_ || _); [exact (from_segments_aux_snoc [] r id)|].
    exact (from_segments_aux_snoc [] (f :: r) id).
Qed.

Lemma path_name_spec lead id args q : path_name lead id = Some q <-> refers_to (TPath lead id args) q.
Proof.
  rewrite path_name_cases. destruct lead as [|f r].
  - destruct (String.eqb id "root" || String.eqb id "output") eqn:E; split; intros H.
    + discriminate.
    + inversion H; subst. cbn in *. apply orb_true_iff in E. rewrite !String.eqb_eq in E. tauto.
    + injection H as <-. apply orb_false_iff in E. rewrite !String.eqb_neq in E. constructor; cbn; tauto.
    + inversion H; subst; reflexivity.
  - destruct (String.eqb f "root" || String.eqb f "output") eqn:E; split; intros H.
    + injection H as <-. apply orb_true_iff in E. rewrite !String.eqb_eq in E. constructor; exact E.
    + inversion H; subst; [reflexivity|]. cbn in *. apply orb_true_iff in E. rewrite !String.eqb_eq in E. tauto.
    + injection H as <-. apply orb_false_iff in E. rewrite !String.eqb_neq in E. constructor; cbn; tauto.
    + inversion H; subst; [|reflexivity]. apply orb_false_iff in E. rewrite !String.eqb_neq in E. tauto.
Qed.
Lemma path_name_none lead id args : path_name lead id = None <-> bare_module (TPath lead id args).
Proof.
  rewrite path_name_cases. unfold bare_module. destruct lead as [|f r].
  - destruct (String.eqb id "root" || String.eqb id "output") eqn:E; split; intros H.
    + apply orb_true_iff in E. rewrite !String.eqb_eq in E. exists id, args. tauto.
    + reflexivity.
    + discriminate.
    + destruct H as (m & a & H & M). injection H as <- <-. apply orb_false_iff in E. rewrite !String.eqb_neq in E. tauto.
  - split; [discriminate | intros (m & a & H & M); discriminate].
Qed.
