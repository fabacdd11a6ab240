From Verif Require Import Base ApiModel ApiVecModel ApiVecProofs ErrorReporterModel.

Lemma flat_map_state_app {S A} (f : S -> A -> S * list api) s l1 l2 :
  flat_map_state f s (l1 ++ l2) =
  let '(s1, o1) := flat_map_state f s l1 in
  let '(s2, o2) := flat_map_state f s1 l2 in (s2, o1 ++ o2).
Proof.
  revert s; induction l1 as [|a l1 IH]; intros s; cbn [app flat_map_state].
  - destruct (flat_map_state f s l2); reflexivity.
  - destruct (f s a) as [s1 o]. rewrite IH.
    destruct (flat_map_state f s1 l1) as [s2 o1]. destruct (flat_map_state f s2 l2) as [s3 o2].
    now rewrite app_assoc.
Qed.

(** When every item yields one item, of the same name, the collection is built
    without clashes. *)
Lemma flat_map_state_names {S} (f : S -> api -> S * list api) s l :
  (forall s a, In a l -> exists b, snd (f s a) = [b] /\ aname b = aname a) ->
  map aname (snd (flat_map_state f s l)) = map aname l.
Proof.
  revert s; induction l as [|a l IH]; intros s H; [reflexivity|]. cbn [flat_map_state].
  destruct (H s a) as [b [E N]]; [left; reflexivity|]. destruct (f s a) as [s1 o]. simpl in E; subst o.
  specialize (IH s1). destruct (flat_map_state f s1 l) as [s2 os]. simpl in IH |- *. f_equal; [exact N|].
  apply IH. intros s' a' Ha. apply H. right; exact Ha.
Qed.

Lemma convert_item_apis_nodup builtin {S} f (s : S) inp out :
  av_wf out ->
  NoDup (map aname (av_apis out ++ snd (flat_map_state (convert_item builtin f) s inp))) ->
  av_apis (snd (convert_item_apis builtin f s inp out)) =
  av_apis out ++ snd (flat_map_state (convert_item builtin f) s inp).
Proof.
  unfold convert_item_apis. destruct (flat_map_state _ s inp) as [s1 l]. simpl. intros W N.
  apply extend_nodup; assumption.
Qed.

(** With a stateless closure the outputs are an ordinary [flat_map]. *)
Lemma flat_map_state_unit (f : unit -> api -> unit * list api) l :
  snd (flat_map_state f tt l) = flat_map (fun a => snd (f tt a)) l.
Proof.
  induction l as [|a l IH]; [reflexivity|]. cbn [flat_map_state flat_map].
  destruct (f tt a) as [[] o] eqn:E. destruct (flat_map_state f tt l) as [s2 os]. simpl in *.
  now rewrite IH.
Qed.
