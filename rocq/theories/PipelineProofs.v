(** Lemmas about the passes of PipelineModel. *)
From Coq Require Import Relations.
From Verif Require Import Base ApiModel ApiSpec ApiVecModel ApiVecProofs ErrorReporterModel ErrorReporterProofs QNamesModel
  DepthFirstModel AbstractTypesModel AbstractTypesProps NameCheckModel NameCheckProofs NameCheckProps
  RemoveIgnoredModel RemoveIgnoredProofs RemoveIgnoredProps GcModel GcProofs GcProps PipelineModel.

Lemma same_name_same_api (l : list api) x y : NoDup (map aname l) -> In x l -> In y l -> aname x = aname y -> x = y.
Proof. intros N. eapply NoDup_map_inj_in; eauto. Qed.

(** ** Constructor dependencies *)

Definition imp (q : qname) (a : api) : bool := match important_for a with Some q' => qn_eqb q q' | None => false end.
Definition ctors_in (l : list api) (q : qname) : list qname := map aname (filter (imp q) l).
Definition getl (q : qname) (m : list (qname * list qname)) : list qname := match qget q m with Some l => l | None => [] end.

Lemma getl_note m a q : getl q (note_constructor m a) = getl q m ++ (if imp q a then [aname a] else []).
Proof.
  unfold note_constructor, imp, getl. destruct (important_for a) as [q'|]; [|now rewrite app_nil_r].
  destruct (qn_eqb q q') eqn:E.
  - apply qn_eqb_eq in E. subst q'. now rewrite qget_qset_same.
  - rewrite qget_qset_other; [now rewrite app_nil_r|]. intros ->. rewrite (proj2 (qn_eqb_eq q' q') eq_refl) in E. discriminate.
Qed.
Lemma getl_find l q : getl q (find_important_constructors l) = ctors_in l q.
Proof.
  unfold find_important_constructors, ctors_in. change (map aname (filter (imp q) l)) with (getl q [] ++ map aname (filter (imp q) l)).
  generalize (@nil (qname * list qname)) as m. induction l as [|a l IH]; intros m; cbn [fold_left filter]; [now rewrite app_nil_r|].
  rewrite IH, getl_note, <- app_assoc. f_equal. destruct (imp q a); reflexivity.
Qed.

Definition deco (l : list api) (a : api) : api :=
  match api_kind_of a with
  | KStruct s =>
      API (api_info a) (KStruct (set_ctor_deps s
        (if match st_kind s with Abstract => true | _ => false end || Nat.ltb 0 (st_num_generics s) then [] else ctors_in l (aname a))))
  | _ => a
  end.
Lemma deco_info l a : api_info (deco l a) = api_info a.
Proof. unfold deco. destruct (api_kind_of a); reflexivity. Qed.

Lemma decorate_list l : forall r m, NoDup (map aname r) ->
  (forall a, In a r -> getl (aname a) m = ctors_in l (aname a)) ->
  snd (flat_map_state (convert_api same decorate_struct same same) m r) = map (deco l) r.
Proof.
  induction r as [|a r IH]; intros m N H; [reflexivity|]. cbn [flat_map_state map]. cbn [map] in N. inversion N as [|n ns N1 N2]; subst.
  assert (IH1 : snd (flat_map_state (convert_api same decorate_struct same same) m r) = map (deco l) r)
    by (apply IH; [exact N2 | intros b Hb; apply H; now right]).
  assert (K : forall k, convert_api same decorate_struct same same m a = (m, [k]) -> k = deco l a ->
    snd (let '(s1, out) := convert_api same decorate_struct same same m a in
         let '(s2, outs) := flat_map_state (convert_api same decorate_struct same same) s1 r in (s2, out ++ outs)) = deco l a :: map (deco l) r).
  { intros k E ->. rewrite E. destruct (flat_map_state _ m r) as [s2 os]. cbn [snd app] in *. now rewrite IH1. }
  destruct a as [i k]. destruct k; try (eapply K; reflexivity).
  unfold convert_api, decorate_struct, deco. cbn [api_kind_of api_info].
  destruct (match st_kind s with Abstract => true | _ => false end || Nat.ltb 0 (st_num_generics s)) eqn:C.
  - cbn [api_or_error]. destruct (flat_map_state _ m r) as [s2 os]. cbn [snd app] in *. now rewrite IH1.
  - cbn [api_or_error]. specialize (IH (qdel (aname (API i (KStruct s))) m) N2).
    assert (G := H (API i (KStruct s)) (or_introl eq_refl)). unfold getl in G.
    destruct (flat_map_state _ (qdel (aname (API i (KStruct s))) m) r) as [s2 os]. cbn [snd app] in *. rewrite G, IH; [reflexivity|].
    intros b Hb. unfold getl. rewrite qget_qdel_other; [apply H; now right|]. intros E. apply N1. rewrite <- E. now apply in_map.
Qed.

Lemma decorate_apis builtin v : NoDup (map aname (av_apis v)) ->
  av_apis (decorate_types_with_constructor_deps builtin v) = map (deco (av_apis v)) (av_apis v).
Proof.
  intros N. unfold decorate_types_with_constructor_deps, convert_apis.
  assert (D := decorate_list (av_apis v) (av_apis v) (find_important_constructors (av_apis v)) N (fun a _ => getl_find _ _)).
  destruct (flat_map_state _ _ (av_apis v)) as [s1 l]. cbn [snd] in *. rewrite extend_nodup; [exact D | apply av_wf_new|].
  cbn [av_apis av_new app]. rewrite D, map_names; [exact N | apply deco_info].
Qed.

(** ** Discarding *)
Definition disc (a : api) : api :=
  match api_kind_of a with
  | KFunction f => match fn_ignore f with Some (e, c) => API (api_info a) (KIgnored e c) | None => a end
  | _ => a
  end.
Lemma disc_info a : api_info (disc a) = api_info a.
Proof. unfold disc. destruct (api_kind_of a); try reflexivity. destruct (fn_ignore f) as [[e c]|]; reflexivity. Qed.
Lemma discard_apis builtin v : NoDup (map aname (av_apis v)) ->
  av_apis (discard_ignored_functions builtin v) = map disc (av_apis v).
Proof.
  intros N. unfold discard_ignored_functions, convert_apis.
  assert (D : flat_map_state (convert_api discard_fn unchanged unchanged unchanged) tt (av_apis v) = (tt, map disc (av_apis v))).
  { apply outs_map. intros [i k]. unfold convert_api, discard_fn, unchanged, disc. cbn [api_kind_of api_info].
    destruct k; try reflexivity. destruct (fn_ignore f) as [[e c]|]; reflexivity. }
  rewrite D. cbn [snd]. rewrite extend_nodup; [reflexivity | apply av_wf_new|].
  cbn [av_apis av_new app]. rewrite map_names; [exact N | apply disc_info].
Qed.

(** ** Marking *)
Definition marked (builtin : string -> bool) (abs : list qname) (a : api) : api :=
  match snd (convert_item builtin refuse_nested tt (mark abs a)) with [b] => b | _ => a end.
Lemma mark_info abs a : api_info (mark abs a) = api_info a.
Proof. destruct a as [i k]. unfold mark. cbn [api_kind_of]. destruct k; auto. destruct (qmem _ abs); reflexivity. Qed.
Lemma marked_info builtin abs a : api_info (marked builtin abs a) = api_info a.
Proof. unfold marked. destruct (refuse_one builtin (mark abs a)) as (k & E & _). rewrite E. apply mark_info. Qed.
Lemma mark_apis builtin v v1 : NoDup (map aname (av_apis v)) -> mark_types_abstract builtin v = Some v1 ->
  exists abs, av_apis v1 = map (marked builtin abs) (filter (keep abs) (av_apis v)).
Proof.
  intros N H. destruct (output_spec builtin v v1 N H) as (ord & abs & _ & _ & E). exists abs. rewrite E.
  clear E H N. induction (av_apis v) as [|a r IH]; [reflexivity|]. cbn [map filter]. rewrite keep_mark.
  destruct (keep abs a); [|auto]. cbn [map flat_map]. rewrite IH.
  unfold marked. destruct (refuse_one builtin (mark abs a)) as (k & F & _). rewrite F. reflexivity.
Qed.
(** What marking does to one item. *)
Lemma marked_cases builtin abs a :
  marked builtin abs a = a \/
  (exists s, api_kind_of a = KStruct s /\ qmem (aname a) abs = true /\ marked builtin abs a = API (api_info a) (KStruct (set_abstract s))) \/
  (exists s, api_kind_of a = KStruct s /\ marked builtin abs a =
     API (api_info a) (KIgnored EAbstractNested (Some (ctx_for_item builtin (qn_item (aname a)))))).
Proof.
  unfold marked. destruct (refuse_one builtin (mark abs a)) as (k & E & H). rewrite E. clear E. rewrite mark_info in *.
  assert (Nm : aname (mark abs a) = aname a) by apply mark_name. rewrite Nm in H. clear Nm.
  destruct a as [i kk]. cbn [api_info] in *. unfold mark in H. cbn [api_kind_of] in H.
  destruct H as [->|(s & c & H1 & H2 & H3 & H4 & ->)].
  - destruct kk; auto. destruct (qmem (aname (API i (KStruct s))) abs) eqn:Q; [|auto]. right. left. exists s. auto.
  - right. right. destruct kk; try discriminate H1. exists s0. auto.
Qed.

(** ** From analysed functions to checked names *)
Section Checked.
Variables (builtin lexes reserved : string -> bool).

Record checked (v : list api) (abs : list qname) (l1 l4 : list api) : Prop := {
  ch_l1 : l1 = map (marked builtin abs) (filter (keep abs) v);
  ch_l4 : Forall2 (fun a b => api_info b = api_info a /\
      (b = disc (deco l1 a) \/
       exists e, b = API (api_info a) (KIgnored e (Some (ctx_for_item builtin (qn_item (aname a))))))) l1 l4;
  ch_nodup : NoDup (map aname l4)
}.

Lemma nodup1 v abs : NoDup (map aname v) -> NoDup (map aname (map (marked builtin abs) (filter (keep abs) v))).
Proof. intros N. rewrite map_names; [now apply NoDup_filter_names | apply marked_info]. Qed.

Lemma checked_ok v v1 v4 : NoDup (map aname (av_apis v)) -> mark_types_abstract builtin v = Some v1 ->
  check_names builtin lexes reserved
    (av_apis (discard_ignored_functions builtin (decorate_types_with_constructor_deps builtin v1))) = Some v4 ->
  exists abs, checked (av_apis v) abs (av_apis v1) (av_apis v4).
Proof.
  intros N M C. destruct (mark_apis builtin v v1 N M) as (abs & E1). exists abs.
  assert (N1 : NoDup (map aname (av_apis v1))) by (rewrite E1; now apply nodup1).
  assert (E2 := decorate_apis builtin v1 N1).
  assert (N2 : NoDup (map aname (av_apis (decorate_types_with_constructor_deps builtin v1))))
    by (rewrite E2, map_names; [exact N1 | apply deco_info]).
  assert (E3 := discard_apis builtin _ N2). rewrite E2, map_map in E3.
  assert (N3 : NoDup (map aname (av_apis (discard_ignored_functions builtin (decorate_types_with_constructor_deps builtin v1))))).
  { rewrite E3, map_names; [exact N1|]. intros a. now rewrite disc_info, deco_info. }
  rewrite E3 in C, N3. destruct (check_names_apis builtin lexes reserved _ _ N3 C) as [E4 _].
  rewrite map_map in E4. split; [exact E1| |].
  - rewrite E4. apply Forall2_map_intro. intros a _.
    set (inter := map (out1 builtin lexes reserved) (map (fun x => disc (deco (av_apis v1) x)) (av_apis v1))).
    set (x := disc (deco (av_apis v1) a)).
    assert (IX : api_info x = api_info a) by (unfold x; now rewrite disc_info, deco_info).
    assert (NX : aname x = aname a) by (unfold aname; now rewrite IX).
    split; [now rewrite out2_name, out1_name|].
    assert (O1 : out1 builtin lexes reserved x = x \/ exists e, out1 builtin lexes reserved x = ignored_as builtin x e)
      by (unfold out1; destruct (check_one lexes reserved x); eauto).
    assert (O2 : forall y, out2 builtin inter y = y \/ exists e, out2 builtin inter y = ignored_as builtin y e)
      by (intros y; unfold out2; destruct (bridge_name y); [destruct (1 <? _)|]; eauto).
    destruct O1 as [->|(e & ->)].
    + destruct (O2 x) as [->|(e & ->)]; [auto|]. right. exists e. unfold ignored_as. now rewrite IX, NX.
    + right. destruct (O2 (ignored_as builtin x e)) as [->|(e' & ->)]; unfold ignored_as; cbn [api_info]; unfold aname; cbn [api_info];
        rewrite IX; eauto.
  - rewrite E4. rewrite map_names; [exact N1|]. intros a. now rewrite out2_name, out1_name, disc_info, deco_info.
Qed.
End Checked.
