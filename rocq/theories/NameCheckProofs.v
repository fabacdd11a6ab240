From Verif Require Import Base ApiModel ApiVecModel ApiVecProofs ErrorReporterModel ErrorReporterProofs QNamesModel NameCheckModel.

Section NC.
Variables (builtin lexes reserved : string -> bool).
Notation ck1 := (check_one lexes reserved).

Definition ignored_as (a : api) (e : cpp_error) : api :=
  API (api_info a) (KIgnored e (Some (ctx_for_item builtin (qn_item (aname a))))).
Definition out1 (a : api) : api := match ck1 a with VErr e => ignored_as a e | _ => a end.
Definition out2 (inter : list api) (a : api) : api :=
  match bridge_name a with
  | Some bn => if 1 <? length (names_found inter bn)
               then ignored_as a (EDuplicateBridgeName (names_found inter bn)) else a
  | None => a
  end.

Lemma conv1 a : convert_item builtin (pass1 lexes reserved) tt a = (tt, [out1 a]).
Proof. unfold convert_item, pass1, out1. destruct (ck1 a); reflexivity. Qed.
Lemma conv2 inter a : convert_item builtin (pass2 inter) tt a = (tt, [out2 inter a]).
Proof.
  unfold convert_item, pass2, out2. destruct (bridge_name a) as [bn|]; [|reflexivity].
  destruct (1 <? length (names_found inter bn)); reflexivity.
Qed.
Lemma outs_map (f : unit -> api -> unit * list api) g l :
  (forall a, f tt a = (tt, [g a])) -> flat_map_state f tt l = (tt, map g l).
Proof.
  intros H. induction l as [|a l IH]; [reflexivity|]. cbn [flat_map_state map].
  rewrite H, IH. reflexivity.
Qed.
Lemma out1_name a : api_info (out1 a) = api_info a.
Proof. unfold out1. destruct (ck1 a); reflexivity. Qed.
Lemma out2_name inter a : api_info (out2 inter a) = api_info a.
Proof.
  unfold out2. destruct (bridge_name a) as [bn|]; [|reflexivity].
  destruct (1 <? length (names_found inter bn)); reflexivity.
Qed.
Lemma map_names g l : (forall a, api_info (g a) = api_info a) -> map aname (map g l) = map aname l.
Proof. intros H. rewrite map_map. apply map_ext. intros a. unfold aname. now rewrite H. Qed.

Lemma check_names_spec l :
  NoDup (map aname l) ->
  check_names builtin lexes reserved l =
  if existsb (fun a => match ck1 a with VPanic => true | _ => false end) l then None
  else Some (av_from_list builtin (map (out2 (map out1 l)) (map out1 l))).
Proof.
  intros N. unfold check_names. destruct (existsb _ l); [reflexivity|]. f_equal.
  unfold convert_item_apis. rewrite (outs_map (convert_item builtin (pass1 lexes reserved)) out1 l) by exact conv1. cbn [snd].
  assert (E : av_apis (av_extend builtin av_new (map out1 l)) = map out1 l).
  { apply (from_list_nodup builtin). rewrite (map_names out1) by exact out1_name. exact N. }
  rewrite E. rewrite (outs_map _ (out2 (map out1 l))) by (apply conv2). reflexivity.
Qed.
Lemma check_names_apis l out :
  NoDup (map aname l) -> check_names builtin lexes reserved l = Some out ->
  av_apis out = map (fun a => out2 (map out1 l) (out1 a)) l /\ (forall a, In a l -> ck1 a <> VPanic).
Proof.
  intros N H. rewrite check_names_spec in H by exact N.
  destruct (existsb _ l) eqn:E; [discriminate|]. inversion H; subst; clear H. split.
  - rewrite from_list_nodup; [now rewrite map_map|].
    rewrite (map_names (out2 _)) by (apply out2_name). rewrite (map_names out1) by exact out1_name. exact N.
  - intros a Ha P. assert (X : existsb (fun a => match ck1 a with VPanic => true | _ => false end) l = true);
      [apply existsb_exists; exists a; rewrite P; auto | congruence].
Qed.

Lemma names_found_length l bn a b : In a l -> In b l -> a <> b ->
  bridge_name a = Some bn -> bridge_name b = Some bn -> 1 < length (names_found l bn).
Proof.
  intros Ha Hb N Ea Eb. unfold names_found. rewrite map_length.
  set (p := fun a => match bridge_name a with Some b => String.eqb b bn | None => false end).
  assert (Fa : In a (filter p l)) by (apply filter_In; split; [exact Ha | unfold p; rewrite Ea; apply String.eqb_refl]).
  assert (Fb : In b (filter p l)) by (apply filter_In; split; [exact Hb | unfold p; rewrite Eb; apply String.eqb_refl]).
  destruct (filter p l) as [|x [|y t]]; simpl in *; [contradiction | | lia].
  destruct Fa as [<-|[]], Fb as [<-|[]]. congruence.
Qed.
Lemma names_found_length_inv l bn a : NoDup (map aname l) -> In a l -> bridge_name a = Some bn ->
  1 < length (names_found l bn) -> exists b, In b l /\ aname b <> aname a /\ bridge_name b = Some bn.
Proof.
  intros N Ha Ea L. unfold names_found in L. rewrite map_length in L.
  set (p := fun a => match bridge_name a with Some b => String.eqb b bn | None => false end) in L.
  assert (Nf : NoDup (map aname (filter p l))) by (apply NoDup_map_filter, N).
  assert (P : forall b, In b (filter p l) -> In b l /\ bridge_name b = Some bn).
  { intros b Hb. apply filter_In in Hb. destruct Hb as [H1 H2]. split; [exact H1|]. unfold p in H2.
    destruct (bridge_name b); [apply String.eqb_eq in H2; congruence | discriminate]. }
  destruct (filter p l) as [|x [|y t]]; simpl in L; try lia.
  inversion Nf as [|? ? Nx _]; subst.
  destruct (P x (or_introl eq_refl)) as [Hx Ex]. destruct (P y (or_intror (or_introl eq_refl))) as [Hy Ey].
  destruct (qname_eq_dec (aname x) (aname a)) as [E|E].
  - exists y. split; [exact Hy|]. split; [|exact Ey]. intros E'. apply Nx. left. congruence.
  - exists x. auto.
Qed.
End NC.

Section Valid.
Variables (lexes reserved : string -> bool).
Lemma marker_not_bitfield id : starts_with "__BindgenBitfieldUnit" id = true ->
  contains "__" id = true /\ starts_with "__bindgen_marker" id = false.
Proof.
  rewrite starts_with_spec. intros [t ->]. split; [|reflexivity].
  apply contains_spec. exists "", ("BindgenBitfieldUnit" +++ t). reflexivity.
Qed.
Lemma marker_not_union id : starts_with "__BindgenUnionField" id = true ->
  contains "__" id = true /\ starts_with "__bindgen_marker" id = false.
Proof.
  rewrite starts_with_spec. intros [t ->]. split; [|reflexivity].
  apply contains_spec. exists "", ("BindgenUnionField" +++ t). reflexivity.
Qed.
Lemma validate_ok id : validate_ident_ok_for_cxx lexes reserved id = VOk <->
  lexes id = true /\ reserved id = false /\
  (contains "__" id = true -> starts_with "__bindgen_marker" id = true) /\
  starts_with "_bindgen_ty_" id = false.
Proof.
  unfold validate_ident_ok_for_cxx.
  destruct (lexes id); simpl; [|split; [discriminate | intros [? _]; discriminate]].
  destruct (reserved id); [split; [discriminate | intros (_ & ? & _); discriminate]|].
  destruct (starts_with "__BindgenBitfieldUnit" id) eqn:E1.
  { destruct (marker_not_bitfield id E1) as [H1 H2]. split; [discriminate|]. intros (_ & _ & H & _).
    rewrite (H H1) in H2. discriminate. }
  destruct (starts_with "__BindgenUnionField" id) eqn:E2.
  { destruct (marker_not_union id E2) as [H1 H2]. split; [discriminate|]. intros (_ & _ & H & _).
    rewrite (H H1) in H2. discriminate. }
  destruct (contains "__" id), (starts_with "__bindgen_marker" id), (starts_with "_bindgen_ty_" id); simpl;
    split; try discriminate; intuition discriminate.
Qed.
Lemma validate_all_ok segs : validate_all lexes reserved segs = VOk <->
  forall s, In s segs -> validate_ident_ok_for_cxx lexes reserved s = VOk.
Proof.
  induction segs as [|x segs IH]; cbn [validate_all]; [split; [intros _ s [] | reflexivity]|].
  destruct (validate_ident_ok_for_cxx lexes reserved x) eqn:E.
  - rewrite IH. split; [intros H s [<-|Hs]; auto | intros H s Hs; apply H; right; exact Hs].
  - split; [discriminate|]. intros H. specialize (H x (or_introl eq_refl)). congruence.
  - split; [discriminate|]. intros H. specialize (H x (or_introl eq_refl)). congruence.
Qed.
Lemma v_and_ok a b : v_and a b = VOk <-> a = VOk /\ b = VOk.
Proof. destruct a; simpl; intuition discriminate. Qed.
End Valid.
