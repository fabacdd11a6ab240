(** C85: what the user lists leaves a trace, for the whole of engine/src/conversion/mod.rs:131-192. *)
From Coq Require Import Relations.
From Verif Require Import Base QNamesModel KnownTypesModel ApiModel ApiSpec ApiVecModel ApiVecProofs ErrorReporterModel AbstractTypesModel
  AbstractTypesProps NameCheckModel NameCheckProofs NameCheckProps TypesModel TypesSpec TypeConverterModel ConcreteNamesModel ByValueModel
  ConversionModel FnAnalysisModel FnAnalysisProofs SubclassGenModel RemoveIgnoredModel RemoveIgnoredProofs RemoveIgnoredProps DepthFirstModel
  DepthFirstProps GcModel GcProofs GcProps PipelineModel PipelineProofs PipelineProps FrontModel FrontProofs FnDriverModel FnDriverProofs FnDriverProps KeptProps.
From Verif Require FrontProps.

(** * Classes taken for abstract are abstract *)
Section Abstract.
Variable l : list api.
Definition sound_states (acc : states * list qname) : Prop :=
  (forall q s, In s (fst (state_of q (fst acc))) -> pending l q s) /\
  (forall q s, In s (snd (state_of q (fst acc))) <-> defines l q s) /\
  (forall q, In q (snd acc) -> abstract l q).
Lemma sound_step acc a : In a l -> sound_states acc -> sound_states (resolve_struct acc a).
Proof.
  intros Ha (S1 & S2 & S3). destruct a as [i k]. destruct acc as [st abs]. unfold resolve_struct. cbn [api_kind_of fst snd] in *.
  destruct k as [| | | |f| | | |s| | | | | | | |]; try (split; [|split]; assumption).
  set (a := API i (KStruct s)) in *.
  set (und := filter (fun u => negb (sig_mem u (snd (state_of (aname a) st))))
          (fold_left (fun u b => match qget b st with Some bs => fold_left (fun u y => sig_insert y u) (fst bs) u | None => u end) (st_bases s) (fst (state_of (aname a) st)))) in *.
  assert (U : forall x, In x und -> pending l (aname a) x).
  { intros x Hx. apply filter_In in Hx as [Hx ND]. apply fold_bases in Hx as [Hx|(b & Hb & Hx)]; [apply S1, Hx|].
    apply (pd_inherited l (aname a) b); [exists i, s; auto | apply S1, Hx|].
    intros D. apply S2, sig_mem_In in D. rewrite D in ND. discriminate. }
  destruct (st_kind s); try (split; [|split]; assumption).
  all: split; [|split]; cbn [fst snd].
  1,4: intros q x Hx; destruct (qname_eq_dec q (aname a)) as [->|NE]; [rewrite state_set_same in Hx; apply U, Hx | rewrite state_set_other in Hx by auto; apply S1, Hx].
  1,3: intros q x; destruct (qname_eq_dec q (aname a)) as [->|NE]; [rewrite state_set_same | rewrite state_set_other by auto]; apply S2.
  all: intros q Hq; destruct und as [|y u] eqn:EU; [apply S3, Hq|]; apply qinsert_In in Hq as [->|Hq]; [exists y; apply U; left; reflexivity | apply S3, Hq].
Qed.
Lemma sound_all ord : (forall a, In a ord -> In a l) -> forall q, In q (snd (fold_left resolve_struct ord (fold_left note_method l [], []))) -> abstract l q.
Proof.
  intros I. assert (G : forall ord acc, (forall a, In a ord -> In a l) -> sound_states acc -> sound_states (fold_left resolve_struct ord acc)).
  { induction ord0 as [|a r IH]; cbn; intros acc IA S; [exact S|]. apply IH; [auto|]. apply sound_step; auto. }
  apply (G ord (fold_left note_method l [], [])); [exact I|]. split; [|split]; cbn [fst snd].
  - intros q s H. apply pd_own, methods_noted, H.
  - intros q s. apply methods_noted.
  - intros q [].
Qed.
End Abstract.

(** * The passes after function analysis, one item at a time *)
Section Listed.
Variables (builtin lexes reserved : string -> bool) (known : qname -> bool).
Variables (allow : string -> bool) (cpp : qname -> string).
Notation run_gc := (to_gc builtin lexes reserved known allow cpp).

Lemma stages_exact v out : NoDup (map aname (av_apis v)) -> run_gc v = Some out ->
  exists abs l1 l3 l4 l5, l1 = map (marked builtin abs) (filter (keep abs) (av_apis v)) /\ (forall q, In q abs -> abstract (av_apis v) q) /\
    l3 = map (fun a => disc (deco l1 a)) l1 /\
    Forall2 (fun a b => api_info b = api_info a /\ (should_survive lexes reserved l3 a -> b = a) /\ (~ should_survive lexes reserved l3 a -> ignored b)) l3 l4 /\
    NoDup (map aname l4) /\ filter_ignored builtin known l4 = RiDone l5 /\ NoDup (map aname l5) /\ gc builtin allow cpp l5 = GcDone out.
Proof.
  intros N R. unfold to_gc in R. destruct (mark_types_abstract builtin v) as [v1|] eqn:M; [|discriminate].
  destruct (check_names _ _ _ _) as [v4|] eqn:C; [|discriminate].
  destruct (filter_ignored builtin known (av_apis v4)) as [l5|] eqn:F; [|discriminate].
  destruct (gc builtin allow cpp l5) as [v6|] eqn:G; [|discriminate]. injection R as <-.
  destruct (output_spec builtin v v1 N M) as (ord & abs & FB & EA & E1).
  assert (A1 : av_apis v1 = map (marked builtin abs) (filter (keep abs) (av_apis v))).
  { rewrite E1. clear. induction (av_apis v) as [|a r IH]; [reflexivity|]. cbn [map filter]. rewrite keep_mark.
    destruct (keep abs a); [|auto]. cbn [map flat_map]. rewrite IH. unfold marked. destruct (refuse_one builtin (mark abs a)) as (k & F & _). rewrite F. reflexivity. }
  assert (N1 : NoDup (map aname (av_apis v1))) by (rewrite A1; now apply nodup1).
  assert (E2 := decorate_apis builtin v1 N1).
  assert (N2 : NoDup (map aname (av_apis (decorate_types_with_constructor_deps builtin v1)))) by (rewrite E2, map_names; [exact N1 | apply deco_info]).
  assert (E3 := discard_apis builtin _ N2). rewrite E2, map_map in E3.
  assert (N3 : NoDup (map aname (av_apis (discard_ignored_functions builtin (decorate_types_with_constructor_deps builtin v1))))).
  { rewrite E3, map_names; [exact N1|]. intros a. now rewrite disc_info, deco_info. }
  assert (C9 := c09_exactly_the_bad_are_ignored _ _ _ _ _ N3 C). rewrite E3 in C9, N3.
  exists abs, (av_apis v1), (map (fun a => disc (deco (av_apis v1) a)) (av_apis v1)), (av_apis v4), l5.
  split; [exact A1|]. split.
  { intros q Hq. rewrite EA in Hq. apply sound_all in Hq; [exact Hq|]. intros a Ha.
    destruct (c03_dependencies_first _ _ _ _ _ N FB) as [P _]. apply (Permutation_in _ P), Ha. }
  split; [reflexivity|]. split; [exact C9|].
  destruct (checked_ok builtin lexes reserved v v1 v4 N M C) as (abs' & K). split; [apply (ch_nodup _ _ _ _ _ K)|]. split; [exact F|]. split; [|exact G].
  destruct (c08_loses_no_name_and_terminates builtin known (av_apis v4) (ch_nodup _ _ _ _ _ K)) as (o & F' & I & _).
  rewrite F in F'. injection F' as <-. assert (E : map aname l5 = map aname (av_apis v4)) by (unfold aname; rewrite <- !(map_map api_info an_name); now rewrite I).
  rewrite E. apply (ch_nodup _ _ _ _ _ K).
Qed.

(** [f] creates values of the class [q]. *)
Definition creates (f : fn_info) (q : qname) : Prop := (exists b, fn_kind_of f = FMethod (MConstructor b) q) \/
  fn_kind_of f = FTraitMethod TCopyConstructor q \/ fn_kind_of f = FTraitMethod TMoveConstructor q.
(** The names [a] would have in the bridge cannot be used, or another item would have one of them too. *)
Definition unnameable (v : list api) (a : api) : Prop :=
  (exists s, In s (idents a) /\ ~ acceptable lexes reserved s) \/
  exists b s, In b v /\ aname b <> aname a /\ occupies a s /\ occupies b s.
Definition reported (out : list api) (i : api_name) : Prop := exists b, In b out /\ api_info b = i /\ ignored b.

Lemma listed_in l5 out c q : NoDup (map aname l5) -> gc builtin allow cpp l5 = GcDone out -> In c l5 -> asked_as c q -> allow (cpp q) = true -> In c (av_apis out).
Proof.
  intros N E H A AL. destruct (c05_keeps_exactly_reachable builtin allow cpp l5 out N E) as [G _]. apply G. split; [exact H|].
  exists c, q. split; [exact H|]. split; [exact A|]. split; [exact AL | apply rt_refl].
Qed.
Lemma acceptable_dec s : acceptable lexes reserved s \/ ~ acceptable lexes reserved s.
Proof. rewrite <- acceptable_iff. destruct (validate_ident_ok_for_cxx lexes reserved s); [left; reflexivity | right; discriminate..]. Qed.

Lemma acceptable_all L : (forall s, In s L -> acceptable lexes reserved s) \/ exists s, In s L /\ ~ acceptable lexes reserved s.
Proof.
  induction L as [|s L [IH|(t & H & NA)]]; [left; intros s [] | | right; exists t; split; [right; exact H | exact NA]].
  destruct (acceptable_dec s) as [A|A]; [left; intros t [<-|H]; auto | right; exists s; split; [left; reflexivity | exact A]].
Qed.
Lemma survive_dec L a : should_survive lexes reserved L a \/ (exists s, In s (idents a) /\ ~ acceptable lexes reserved s) \/
  exists b s, In b L /\ aname b <> aname a /\ occupies a s /\ occupies b s.
Proof.
  destruct (acceptable_all (idents a)) as [A|A]; [|auto].
  destruct (bridge_name a) as [s|] eqn:B.
  2: { left. split; [exact A|]. intros b s _ _ _ O. apply occupies_bridge in O. congruence. }
  assert (D : (forall b, In b L -> aname b <> aname a -> bridge_name b <> Some s) \/ exists b, In b L /\ aname b <> aname a /\ bridge_name b = Some s).
  { induction L as [|b L [IH|(b0 & H & X)]]; [left; intros b [] | | right; exists b0; split; [right; exact H | exact X]].
    destruct (qname_eq_dec (aname b) (aname a)) as [E|NE]; [left; intros x [<-|H]; [congruence | auto]|].
    destruct (bridge_name b) as [t|] eqn:T; [|left; intros x [<-|H]; [congruence | auto]].
    destruct (string_dec t s) as [->|NT]; [right; exists b; split; [left; reflexivity | auto]|].
    left. intros x [<-|H]; [congruence | auto]. }
  destruct D as [D|(b & H & NE & E)].
  - left. split; [exact A|]. intros b t H _ NE O O'. apply occupies_bridge in O, O'. apply (D b H NE). congruence.
  - right. right. exists b, s. split; [exact H|]. split; [exact NE|]. split; apply occupies_bridge; assumption.
Qed.
Lemma occupies_back abs l1 a0 s : occupies (disc (deco l1 (marked builtin abs a0))) s -> occupies a0 s.
Proof.
  intros O. apply occupies_bridge in O. apply occupies_bridge. destruct a0 as [i k].
  destruct (marked_cases builtin abs (API i k)) as [M|[(t & M1 & _ & M)|(t & M1 & M)]]; rewrite M in O.
  - destruct k; try exact O. unfold deco, disc in O. cbn [api_kind_of api_info] in O. destruct (fn_ignore f) as [[? ?]|]; [discriminate O | exact O].
  - cbn in M1. subst k. exact O.
  - discriminate O.
Qed.

(** A function which the user asks for is there in the end as it is, or as an error; or it creates values of an abstract class; or
    it cannot be named. This is so if the places where its errors are filed are what the user asks for. *)
Lemma listed_function v out i f q : NoDup (map aname (av_apis v)) -> run_gc v = Some out -> In (API i (KFunction f)) (av_apis v) ->
  asked_as (API i (KFunction f)) q -> allow (cpp q) = true ->
  (forall e, asked_as (create_ignore_item builtin (API i (KFunction f)) e) q) ->
  (forall e c, fn_ignore f = Some (e, c) -> asked_as (API i (KIgnored e c)) q) ->
  (In (API i (KFunction f)) (av_apis out) /\ fn_ignore f = None) \/ reported (av_apis out) i \/
  (exists p, creates f p /\ abstract (av_apis v) p) \/ unnameable (av_apis v) (API i (KFunction f)).
Proof.
  intros N R Ha Q AL F1 F2. destruct (stages_exact v out N R) as (abs & l1 & l3 & l4 & l5 & E1 & AB & E3 & C9 & N4 & F & N5 & G).
  set (a := API i (KFunction f)) in *.
  destruct (keep abs a) eqn:KE.
  2: { right. right. left. unfold keep, a in KE. cbn [api_kind_of] in KE. unfold creates.
       destruct (fn_kind_of f) as [|[]|[]]; try discriminate KE; apply negb_false_iff, qmem_In, AB in KE; eexists; (split; [|exact KE]); eauto. }
  assert (M : marked builtin abs a = a).
  { destruct (marked_cases builtin abs a) as [M|[(s & M1 & _)|(s & M1 & _)]]; [exact M | discriminate M1..]. }
  assert (H1 : In a l1) by (rewrite E1; apply in_map_iff; exists a; split; [exact M|]; apply filter_In; auto).
  assert (H3 : In (disc a) l3) by (rewrite E3; apply in_map_iff; exists a; split; [reflexivity | exact H1]).
  destruct (filter_ignored_spec builtin known l4 N4) as (o & ign & F' & _ & RL & _). rewrite F in F'. injection F' as <-.
  destruct (Forall2_in_l _ _ _ _ C9 H3) as (b & Hb & Ib & S1 & S2).
  destruct (Forall2_in_l _ _ _ b RL Hb) as (c & Hc & Rc).
  unfold disc in Ib, S1, S2. cbn [a api_kind_of api_info] in Ib, S1, S2. destruct (fn_ignore f) as [[e cx]|] eqn:FI.
  - right. left. assert (b = API i (KIgnored e cx)) as ->.
    { apply S1. split; [intros s []|]. intros b0 s _ _ _ O. inversion O as [| i0 k0 _ _ _ X _ Y]; subst. elim (X e cx eq_refl). }
    exists (API i (KIgnored e cx)). split; [|split; [reflexivity | constructor]].
    destruct Rc as [[-> _]|(NI & _)]; [|discriminate NI]. eapply listed_in; eauto.
  - destruct (survive_dec l3 a) as [SU|NS].
    + rewrite (S1 SU) in *. clear b Ib S1 S2 Hb.
      assert (X : c = a \/ exists e, c = create_ignore_item builtin a e).
      { destruct Rc as [[-> _]|(_ & _ & [(ds & _ & _ & _ & -> & _)|(d & _ & _ & _ & ->)])]; eauto. }
      destruct X as [->|(e & ->)]; [left; split; [eapply listed_in; eauto | reflexivity]|].
      right. left. exists (create_ignore_item builtin a e). split; [eapply listed_in; eauto|]. split; [reflexivity | constructor].
    + right. right. right. destruct NS as [NS|(b0 & s & B1 & B2 & B3 & B4)]; [left; exact NS|]. right.
      rewrite E3 in B1. apply in_map_iff in B1 as (x & X1 & X2). cbv beta in X1. rewrite E1 in X2. apply in_map_iff in X2 as (a0 & <- & A0). apply filter_In in A0 as [A0 _].
      exists a0, s. split; [exact A0|]. split; [|split; [exact B3 | rewrite <- X1 in B4; eapply occupies_back; exact B4]].
      intros E. apply B2. rewrite <- X1, <- E. unfold aname. now rewrite disc_info, deco_info, marked_info.
Qed.
End Listed.

(** * Where errors are filed *)
(** The error [c] is about the item called [n]. *)
Definition about (n : qname) (c : option err_ctx) : Prop :=
  match c with Some (CtxMethod _ _) => False | Some (CtxItem id) => id = qn_item n | _ => True end.
(** The errors parsing found are each about the item they are at. Parsing makes no overrides. *)
Definition filed (x : xapi) : Prop :=
  (forall e c, x_kind x = XIgnored e c \/ x_kind x = XForward (Some (e, c)) -> about (xname x) c) /\ forall sub sf, x_kind x <> XRustSubclassFn sub sf.
Lemma about_item builtin n : about n (Some (ctx_for_item builtin (qn_item n))).
Proof. unfold ctx_for_item. destruct (builtin _); cbn; auto. Qed.
Lemma filed_marker cfg n : filed (xmarker cfg n).
Proof. split; [|discriminate]. intros e c [E|E]; [|discriminate]. injection E as _ <-. apply about_item. Qed.
Lemma filed_plain x : x_ignored x = false -> (forall e, x_kind x <> XForward (Some e)) -> (forall sub sf, x_kind x <> XRustSubclassFn sub sf) -> filed x.
Proof. intros I F S. split; [|exact S]. intros e c [E|E]; [unfold x_ignored in I; rewrite E in I; discriminate | destruct (F _ E)]. Qed.
Lemma filed_error cfg x e : filed (x_error cfg x e).
Proof. split; [|discriminate]. intros e' c [E|E]; [|discriminate]. injection E as _ <-. apply about_item. Qed.

Section FrontFiled.
Variable cfg : acfg.
Lemma filed_extend l v : Forall filed v -> Forall filed l -> Forall filed (xextend cfg v l).
Proof.
  intros V L. rewrite Forall_forall in *. intros y Hy. apply xextend_in in Hy as [H|[H|(x & H & ->)]]; [auto..|]. apply filed_marker.
Qed.
Lemma filed_convert {S} (f : S -> xapi -> S * out xapi) s s' l r : (forall s s1 x y, f s x = (s1, OOk y) -> filed x -> filed y) ->
  Forall filed l -> x_convert cfg f s l = (s', OOk r) -> Forall filed r.
Proof.
  intros Hf L C. assert (F2 : Forall2 (fun x y => filed x -> filed y) l r).
  { eapply x_convert_forall2; [| |exact C]; intros; [eapply Hf; eauto | apply filed_error]. }
  clear C. induction F2 as [|x y l r H F2 IH]; [constructor|]. inversion L; subst. constructor; auto.
Qed.
Lemma filed_made v : Forall (FrontProps.made_item cfg) v -> Forall filed v.
Proof.
  apply Forall_impl. intros y [(p & q & def & rs & ->)|(p & q & ->)]; [|apply filed_marker]. apply filed_plain; [reflexivity | discriminate | discriminate].
Qed.
Lemma filed_kind x y k : filed x -> x_info y = x_info x -> x_kind y = k -> (forall e c, k <> XIgnored e c) -> (forall e, k <> XForward (Some e)) ->
  (forall sub sf, k <> XRustSubclassFn sub sf) -> filed y.
Proof. intros _ _ <- A B C. apply filed_plain; [|exact B | exact C]. unfold x_ignored. destruct (x_kind y); try reflexivity. elim (A err ctx eq_refl). Qed.
Lemma front_filed l l1 : NoDup (map xname l) -> Forall filed l -> front cfg l = OOk l1 -> Forall filed l1.
Proof.
  intros ND L H. unfold front in H. destruct (convert_typedef_targets cfg l) as [la|e| |] eqn:T; try discriminate.
  destruct (analyze_pod_apis cfg la) as [lb|e| |] eqn:P; try discriminate. injection H as <-.
  assert (LA : Forall filed la).
  { unfold convert_typedef_targets in T. destruct (x_convert _ _ _ _) as [[cs extra] [r0|e| |]] eqn:C; try discriminate. injection T as <-.
    apply filed_extend; [apply filed_extend; [constructor|]|].
    - eapply filed_convert; [|exact L|exact C]. intros s s1 x y E F. unfold tdef_item in E. destruct (x_kind x) eqn:K; try (injection E as _ <-; exact F).
      destruct item as [g t|t].
      + unfold get_replacement_typedef in E. destruct (Nat.ltb 0 g); [discriminate|]. destruct (ac_fatal cfg (xname x)); [discriminate|].
        destruct (convert_type _ _ _ _ _ _) as [cs1 [an'|e| |]]; try discriminate.
        destruct (match ann_ty an' with TPath _ _ _ => _ | _ => _ end) as [[]|]; try discriminate. injection E as _ <-. apply filed_plain; [reflexivity | discriminate | discriminate].
      + injection E as _ <-. apply filed_plain; [reflexivity | discriminate | discriminate].
    - apply filed_made. change (Forall (FrontProps.made_item cfg) (snd (cs, extra))).
      eapply (FrontProps.x_convert_state cfg (fun s => Forall (FrontProps.made_item cfg) (snd s))); [| |exact C]; [intros; eapply FrontProps.tdef_state; eauto | constructor]. }
  assert (LB : Forall filed lb).
  { unfold analyze_pod_apis in P. destruct (new_from_apis _ _ _) as [db| | |]; try discriminate.
    destruct (x_convert _ _ _ _) as [[cs extra] [r0|e| |]] eqn:C; try discriminate. injection P as <-.
    apply filed_extend; [apply filed_extend; [constructor|]|].
    - eapply filed_convert; [|exact LA|exact C]. intros s s1 x y E F. unfold pod_item in E. destruct (x_kind x) eqn:K; try (injection E as _ <-; exact F).
      + destruct (ac_fatal cfg (xname x)); [discriminate|]. injection E as _ <-. exact F.
      + destruct (analyze_struct _ _ _ _ _ _ _ _ _) as [cs1 [[pa made]|e| |]]; try discriminate. injection E as _ <-.
        apply filed_plain; [reflexivity | discriminate | discriminate].
    - apply filed_made. change (Forall (FrontProps.made_item cfg) (snd (cs, extra))).
      eapply (FrontProps.x_convert_state cfg (fun s => Forall (FrontProps.made_item cfg) (snd s))); [| |exact C]; [intros; eapply FrontProps.pod_state; eauto | constructor]. }
  assert (ADD : forall (g : xapi -> list xapi) m, (forall x y, In y (g x) -> filed y) -> Forall filed m -> Forall filed (xextend cfg [] (flat_map (fun x => g x ++ [x]) m))).
  { intros g m G M. apply filed_extend; [constructor|]. rewrite Forall_forall in *. intros y Hy. apply in_flat_map in Hy as (x & Hx & Hy).
    apply in_app_iff in Hy as [Hy|[<-|[]]]; [eapply G; eauto | auto]. }
  unfold create_alloc_and_frees, add_casts. apply ADD; [|apply ADD].
  - intros x y Hy. unfold allocs_for in Hy. destruct (x_kind x); try contradiction Hy;
      (destruct Hy as [<-|[<-|[]]]; apply filed_plain; [reflexivity | discriminate | discriminate | reflexivity | discriminate | discriminate]).
  - intros x y Hy. unfold casts_for in Hy. destruct (x_kind x); try contradiction Hy. destruct an as [pa|]; [|contradiction Hy].
    apply in_map_iff in Hy as (q & <- & _). apply filed_plain; [reflexivity | discriminate | discriminate].
  - unfold replace_hopeless_typedef_targets. apply filed_extend; [constructor|]. rewrite Forall_forall in *. intros y Hy.
    apply in_map_iff in Hy as (x & <- & Hx). apply LB in Hx. unfold replace_hopeless. destruct (x_kind x) eqn:K; try exact Hx.
    + destruct err as [[e c]|]; [|exact Hx]. split; [|discriminate]. intros e' c' [E|E]; [|discriminate]. injection E as <- <-. apply (proj1 Hx e c). auto.
    + destruct an as [[k deps]|]; [|exact Hx]. destruct (negb (disjoint_q _ deps)).
      * destruct (x_nested x); [|apply filed_plain; [reflexivity | discriminate | discriminate]].
        split; [|discriminate]. intros e c [E|E]; [|discriminate]. injection E as _ <-. apply about_item.
      * destruct (negb (disjoint_q _ deps)); [apply filed_plain; [reflexivity | discriminate | discriminate] | exact Hx].
Qed.
End FrontFiled.

(** * The whole run *)
Section Run.
Variables (d : dcfg) (l l1 r : list xapi) (found : list (qname * IC.items)) (out : apivec).
Hypothesis ND : NoDup (map xname l).
Hypothesis FR : front (dc_front d) l = OOk l1.
Hypothesis AN : analyze_functions_x d l1 = OOk (r, found).
Hypothesis KE : kept d l = Some out.
Let v := av_from_list (ac_builtin (dc_front d)) (map (erase d) r).

Lemma run_gc_ok : exists g, to_gc (ac_builtin (dc_front d)) (ac_lexes (dc_front d)) (ac_reserved (dc_front d)) is_known_type (ac_allow (dc_front d)) to_cpp_name v = Some g /\
  av_wf g /\ out = append_ctype_information (ac_builtin (dc_front d)) is_ctype g.
Proof.
  pose proof KE as K. unfold kept, analyzed in K. rewrite FR, AN in K. unfold pipeline in K. fold v in K.
  destruct (to_gc _ _ _ _ _ _ _) as [g|] eqn:GC; [|discriminate]. injection K as <-. exists g. split; [reflexivity|]. split; [|reflexivity].
  destruct (stages _ _ _ _ _ _ _ g (v_nodup d l1 r found AN) GC) as (abs & l2 & l4 & l5 & _ & _ & N5 & E). eapply gc_spec; eauto.
Qed.
Lemma function_analysed nm f pv fa : In (XA nm (XFunction f pv (Some fa))) r ->
  exists name soph pre s s', analyze_foreign_fn (x_env d l1) name f soph pre s = (s', OOk (fa, nm)).
Proof.
  intros Hx. destruct (account_of d l1 r found AN) as (st & AC).
  destruct (c82_result _ _ _ _ _ AC) as (_ & PR & _). destruct (PR _ Hx) as [P|(c & E)]; [|discriminate E].
  inversion P as [x I NF|name f0 fa0 nm0 O (pre & s & s' & Q & _)|name f0 sup sub name' f' fa0 nm0 O V S I1 I2 I3 I4 (pre & s & s' & Q & _)| | |
      n f0 pv0 fa0 b sup sub name' f' triv cpp fa' nm0 P0 K0 S0 I1 I2 (pre & s & s' & Q & _)|]; subst; eauto 8.
  elim NF. exists f, pv, (Some fa). reflexivity.
Qed.
(** Something in the result has the name of an item of the result of function analysis, and is it. *)
Lemma asked_item y : In y r -> ~ is_function y -> (forall sub sf, x_kind y <> XRustSubclassFn sub sf) -> filed y -> ac_allow (dc_front d) (to_cpp_name (xname y)) = true ->
  exists b, In b (av_apis out) /\ aname b = xname y.
Proof.
  intros Hy NF NS [FI _] AL. destruct run_gc_ok as (g & GC & W & ->).
  destruct (c58_listed_items_present _ _ _ _ _ _ v g (erase d y) (v_nodup d l1 r found AN) GC) as (b & Hb & Ib).
  - unfold v. rewrite (v_apis d l1 r found AN). apply in_map, Hy.
  - apply asked_as_name. unfold name_for_allowlist, erase, aname. cbn [api_info api_kind_of].
    destruct (x_kind y) eqn:K; try reflexivity.
    + elim NF. eexists _, _, _. exact K.
    + destruct an; reflexivity.
    + specialize (FI err ctx (or_introl eq_refl)). destruct ctx as [[]|]; cbn in FI; try contradiction; try reflexivity. subst. unfold xname. destruct (an_name (x_info y)); reflexivity.
    + elim (NS _ _ eq_refl).
  - intros f E. unfold erase in E. cbn [api_kind_of] in E. destruct (x_kind y) eqn:K; try discriminate E; [elim NF; eexists _, _, _; exact K | destruct an; discriminate E].
  - exact AL.
  - destruct (proj1 (ctypes_keep (ac_builtin (dc_front d)) g b W Hb)) as (b' & B1 & B2). exists b'. split; [exact B1|]. rewrite B2. unfold aname. rewrite Ib. reflexivity.
Qed.
End Run.

(** C85. Every item, other than a function, which the user lists by its name leaves an entry of that name, itself or an error; unless
    autocxx itself makes up names like its name, or gives its name to a function or an override. *)
Theorem c85_listed_items_partial : forall d l l1 r found out, NoDup (map xname l) -> Forall filed l ->
  front (dc_front d) l = OOk l1 -> analyze_functions_x d l1 = OOk (r, found) -> kept d l = Some out ->
  forall x, In x l -> ~ is_function x -> ~ FrontProps.made_up (xname x) -> ac_allow (dc_front d) (to_cpp_name (xname x)) = true ->
  (exists b, In b (av_apis out) /\ aname b = xname x) \/
  exists y, In y r /\ xname y = xname x /\ (is_function y \/ exists sub sf, x_kind y = XRustSubclassFn sub sf).
Proof.
  intros d l l1 r found out ND FI FR AN KE x Hx NF NM AL.
  destruct (FrontProps.c79_nothing_lost_partial _ _ _ ND FR) as (_ & L). destruct (L x Hx NM) as (x1 & H1 & F1).
  assert (E1 : xname x1 = xname x) by (apply FrontProps.fate_name, F1).
  assert (NF1 : ~ is_function x1).
  { intros (f & pv & an & K). destruct F1 as [_ [C|[C|(_ & b & C)]]].
    - rewrite K in C. destruct (x_kind x) eqn:KX; try discriminate C. apply NF. eexists _, _, _. exact KX.
    - unfold x_ignored in C. rewrite K in C. discriminate.
    - congruence. }
  pose proof (front_filed _ _ _ ND FI FR) as FI1. rewrite Forall_forall in FI1.
  destruct (account_of d l1 r found AN) as (st & AC). destruct (c82_account _ _ _ _ _ AC) as (P & A). pose proof (ac_settles _ _ _ _ _ _ A) as S0.
  assert (IP : In x1 P) by (apply (ac_same _ _ _ _ _ _ A); assumption).
  apply (in_map xname), (se_names _ _ _ S0), in_map_iff in IP as (y & E & Hy). rewrite E1 in E.
  assert (D : (is_function y \/ exists sub sf, x_kind y = XRustSubclassFn sub sf) \/ (~ is_function y /\ forall sub sf, x_kind y <> XRustSubclassFn sub sf)).
  { unfold is_function. destruct (x_kind y); try (right; split; [intros (? & ? & ? & X); discriminate X | discriminate]); left; eauto 6. }
  destruct D as [D|[D1 D2]]; [right; exists y; auto|]. left. rewrite <- E. eapply asked_item; eauto.
  - apply (se_in _ _ _ S0) in Hy as [Hy|(n & -> & _)]; [|apply filed_marker]. apply (ac_products _ _ _ _ _ _ A) in Hy.
    inversion Hy; subst; try (apply filed_plain; [reflexivity | discriminate | discriminate]).
    + apply FI1. assumption.
    + elim (D2 _ _ eq_refl).
  - rewrite E. exact AL.
Qed.
Print Assumptions c85_listed_items_partial.

(** What becomes of a function [y] of the result of function analysis which the user asks for: it is kept as it is; or there is an error
    of its name; or it creates values of an abstract class; or its names in the bridge cannot be used. *)
Definition trace (d : dcfg) (r : list xapi) (out : apivec) (y : xapi) : Prop :=
  (In (erase d y) (av_apis out) /\ forall f pv fa, x_kind y = XFunction f pv (Some fa) -> fa_ignore fa = None) \/
  reported (av_apis out) (x_info y) \/
  (exists f q, api_kind_of (erase d y) = KFunction f /\ creates f q /\ abstract (map (erase d) r) q) \/
  unnameable (ac_lexes (dc_front d)) (ac_reserved (dc_front d)) (map (erase d) r) (erase d y).

Section Traces.
Variables (d : dcfg) (l l1 r : list xapi) (found : list (qname * IC.items)) (out : apivec).
Hypothesis FR : front (dc_front d) l = OOk l1.
Hypothesis AN0 : analyze_functions_x d l1 = OOk (r, found).
Hypothesis KE : kept d l = Some out.

Lemma traced nm f pv fa q : In (XA nm (XFunction f pv (Some fa))) r -> ~ ctype_name (an_name nm) -> ac_allow (dc_front d) (to_cpp_name q) = true ->
  (forall k, k = api_kind_of (erase d (XA nm (XFunction f pv (Some fa)))) ->
   asked_as (API nm k) q /\ forall e, asked_as (create_ignore_item (ac_builtin (dc_front d)) (API nm k) e) q) ->
  (forall e c, fa_ignore fa = Some (e, c) -> asked_as (API nm (KIgnored e (Some c))) q) ->
  trace d r out (XA nm (XFunction f pv (Some fa))).
Proof.
  intros H NC AL AS IG. destruct (run_gc_ok d l l1 r found out FR AN0 KE) as (g & GC & W & ->).
  destruct (AS _ eq_refl) as [A1 A2].
  assert (VA := v_apis d l1 r found AN0). assert (VN := v_nodup d l1 r found AN0).
  unfold trace, erase in *. cbn [x_info x_kind api_kind_of] in *.
  match type of A1 with asked_as (API _ (KFunction ?fi)) _ =>
    pose proof (listed_function (ac_builtin (dc_front d)) (ac_lexes (dc_front d)) (ac_reserved (dc_front d)) is_known_type (ac_allow (dc_front d)) to_cpp_name _ g nm fi q VN GC) as L end.
  rewrite VA in L. specialize (L (in_map (erase d) _ _ H) A1 AL A2).
  destruct L as [[L E]|[(b & L1 & L2 & L3)|[(p & L1 & L2)|L]]].
  - cbn [fn_ignore]. intros e c E. destruct (fa_ignore fa) as [[e0 c0]|]; [|discriminate E]. injection E as <- <-. eapply IG. reflexivity.
  - left. split; [apply (proj2 (ctypes_keep (ac_builtin (dc_front d)) g _ W L)); exact NC|].
    intros f0 pv0 fa0 X. injection X as _ _ <-. cbn [fn_ignore] in E. destruct (fa_ignore fa); [discriminate E | reflexivity].
  - right. left. exists b. split; [|auto]. apply (proj2 (ctypes_keep (ac_builtin (dc_front d)) g _ W L1)). unfold aname. rewrite L2. exact NC.
  - right. right. left. eauto 6.
  - right. right. right. exact L.
Qed.
End Traces.

Lemma trait_context env synth ns ideal self st st' k c n : trait_creation_details env synth ns ideal self st = (st', OOk (Some (k, c, n))) ->
  exists tk q, k = FTraitMethod tk q.
Proof.
  unfold trait_creation_details. intros H. destruct synth as [[to|q0|q0]|].
  all: repeat match type of H with bind _ _ _ = _ => let a := fresh in let b := fresh in let X := fresh in apply bind_ok in H as (a & b & X & H) end.
  all: apply ret_ok in H as [_ H]; try discriminate H.
  all: injection H; intros; subst; eauto.
Qed.
Lemma method_context env fn ns pre ideal static self rc sec st st' mk q c n :
  fn_kind_and_name env fn ns pre ideal static self rc sec st = (st', OOk (FMethod mk q, c, n)) -> c = error_context_for_method env q n.
Proof.
  unfold fn_kind_and_name. intros H. apply bind_ok in H as (sa & tr & T & H). destruct tr as [[[k c0] n0]|].
  { apply ret_ok in H as [_ H]. injection H as <- <- <-. apply trait_context in T as (tk & p & X). discriminate X. }
  destruct self as [p|]; [|apply bind_ok in H as (sb & m & X & H); apply ret_ok in H as [_ H]; discriminate H].
  destruct (f_special fn) as [[]|]; repeat (apply bind_ok in H as (? & [] & ? & H) || apply bind_ok in H as (? & ? & ? & H)); apply ret_ok in H as [_ H];
    try discriminate H; try (injection H as _ -> -> ->; reflexivity).
  all: injection H as E1 -> ->; destruct sec; try discriminate E1; injection E1 as _ <-; reflexivity.
Qed.
Lemma function_context env fn ns pre ideal static self rc sec st st' c n :
  fn_kind_and_name env fn ns pre ideal static self rc sec st = (st', OOk (FFunction, c, n)) -> c = ctx_for_item (fe_builtin env) n.
Proof.
  unfold fn_kind_and_name. intros H. apply bind_ok in H as (sa & tr & T & H). destruct tr as [[[k c0] n0]|].
  { apply ret_ok in H as [_ H]. injection H as <- <- <-. apply trait_context in T as (tk & p & X). discriminate X. }
  destruct self as [p|]; [|apply bind_ok in H as (sb & m & X & H); apply ret_ok in H as [_ H]; injection H as -> ->; reflexivity].
  destruct (f_special fn) as [[]|]; repeat (apply bind_ok in H as (? & [] & ? & H) || apply bind_ok in H as (? & ? & ? & H)); apply ret_ok in H as [_ H];
    try discriminate H.
  all: injection H as E1 _ _; destruct sec; discriminate E1.
Qed.

(** C85. A method or constructor of a class which the user lists is kept; or there is an error of its name; or it is a constructor of an
    abstract class; or it cannot be named in the bridge. The class must be in the namespace of the method, must not be a template, and
    neither may be named like a built-in type. *)
Theorem c85_listed_methods_partial : forall d l l1 r found out,
  front (dc_front d) l = OOk l1 -> analyze_functions_x d l1 = OOk (r, found) -> kept d l = Some out ->
  forall nm f pv fa mk q, In (XA nm (XFunction f pv (Some fa))) r -> fa_kind fa = FMethod mk q -> ac_allow (dc_front d) (to_cpp_name q) = true ->
  qn_ns (an_name nm) = qn_ns q -> ac_builtin (dc_front d) (qn_item q) = false -> ~ ctype_name (an_name nm) ->
  (forall x k pa, In x l1 -> xname x = q -> x_kind x = XStruct k (Some pa) -> pa_generics pa = 0) ->
  trace d r out (XA nm (XFunction f pv (Some fa))).
Proof.
  intros d l l1 r found out FR AN0 KE nm f pv fa mk q H K AL NS BI NC NG.
  destruct (function_analysed d l1 r found AN0 nm f pv fa H) as (name & soph & pre & s & s' & Q).
  eapply traced; eauto.
  - intros k ->. unfold erase. cbn [api_kind_of x_kind]. split; [eapply ask_method; exact K|].
    intros e. unfold create_ignore_item. cbn [api_kind_of fn_kind_of api_info]. rewrite K. unfold ctx_for_method. rewrite BI.
    apply asked_as_name. unfold name_for_allowlist, aname. cbn [api_kind_of api_info]. rewrite NS. destruct q; reflexivity.
  - intros e c E. destruct (analyze_ok _ _ _ _ _ _ _ _ _ Q) as (_ & ps0 & bads & ig0 & ps1 & r0 & ig2 & b0 & kw & P).
    destruct (pc_linked _ _ _ _ _ _ _ _ _ _ _ _ _ _ P) as (s1 & s2 & s3 & s4 & s5 & ideal & st & self & rc & sec & ctx & _ & _ & _ & FK & _ & IG).
    specialize (IG _ _ E). subst c. rewrite K in FK.
    assert (C : ctx = CtxMethod (qn_item q) (if ac_builtin (dc_front d) (fa_rust fa) then fa_rust fa +++ "_autocxx_error" else fa_rust fa)).
    { assert (G : qmem q (fe_generic (x_env d l1)) = false).
      { apply not_true_is_false. intros G. apply qmem_In in G. cbn [x_env fe_generic] in G. apply in_flat_map in G as (x & X1 & X2).
        destruct (x_kind x) eqn:KX; try contradiction X2. destruct an as [pa|]; [|contradiction X2].
        destruct (Nat.ltb 0 (pa_generics pa)) eqn:LT; [|contradiction X2]. destruct X2 as [X2|[]]. rewrite (NG _ _ _ X1 X2 KX) in LT. discriminate. }
      assert (X : ctx = error_context_for_method (x_env d l1) q (fa_rust fa)).
      { eapply method_context; exact FK. }
      rewrite X. unfold error_context_for_method. rewrite G. unfold ctx_for_method. cbn [fe_builtin x_env]. rewrite BI. reflexivity. }
    subst ctx. apply asked_as_name. unfold name_for_allowlist, aname. cbn [api_kind_of api_info]. rewrite NS. destruct q; reflexivity.
Qed.
Print Assumptions c85_listed_methods_partial.

(** C85. A free function which the user lists is kept, or there is an error of its name, or it cannot be named in the bridge; if neither an
    overload number nor a wrapper changes its name. *)
Theorem c85_listed_functions_partial : forall d l l1 r found out,
  front (dc_front d) l = OOk l1 -> analyze_functions_x d l1 = OOk (r, found) -> kept d l = Some out ->
  forall nm f pv fa, In (XA nm (XFunction f pv (Some fa))) r -> fa_kind fa = FFunction ->
  fa_rust fa = f_ident f -> an_name nm = QN (qn_ns (an_name nm)) (f_ident f) ->
  ac_allow (dc_front d) (to_cpp_name (an_name nm)) = true -> ~ ctype_name (an_name nm) ->
  trace d r out (XA nm (XFunction f pv (Some fa))).
Proof.
  intros d l l1 r found out FR AN0 KE nm f pv fa H K RU BR AL NC.
  destruct (function_analysed d l1 r found AN0 nm f pv fa H) as (name & soph & pre & s & s' & Q).
  eapply (traced d l l1 r found out FR AN0 KE nm f pv fa (an_name nm)); eauto.
  - intros k ->. unfold erase. cbn [api_kind_of x_kind]. split.
    { apply asked_as_name. unfold name_for_allowlist, aname. cbn [api_kind_of api_info fn_kind_of fn_ident]. rewrite K. symmetry. exact BR. }
    intros e. unfold create_ignore_item. cbn [api_kind_of fn_kind_of api_info]. rewrite K.
    apply asked_as_name. unfold name_for_allowlist, ctx_for_item, aname. cbn [api_kind_of api_info]. destruct (ac_builtin _ _); [reflexivity|]. destruct (an_name nm); reflexivity.
  - intros e c E. destruct (analyze_ok _ _ _ _ _ _ _ _ _ Q) as (_ & ps0 & bads & ig0 & ps1 & r0 & ig2 & b0 & kw & P).
    destruct (pc_linked _ _ _ _ _ _ _ _ _ _ _ _ _ _ P) as (s1 & s2 & s3 & s4 & s5 & ideal & st & self & rc & sec & ctx & _ & _ & _ & FK & _ & IG).
    specialize (IG _ _ E). subst c. rewrite K in FK. apply function_context in FK as ->. rewrite RU.
    apply asked_as_name. unfold name_for_allowlist, ctx_for_item, aname. cbn [api_kind_of api_info fe_builtin x_env].
    destruct (ac_builtin _ _); [reflexivity|]. symmetry. exact BR.
Qed.
Print Assumptions c85_listed_functions_partial.

Import FrontProps.
(** The user lists what [named] says. *)
Definition dda (named : string -> bool) : dcfg :=
  DC (AC (fun _ => false) (fun _ => false) (fun _ => false) named [] [] [] (fun _ => true) (fun s => String.eqb s "type") (fun _ => false)
    (fun _ => None) 50) AllFunctionsSafe false false (fun _ => false) "0xabc" false (fun _ => "t").
Definition front_for (d : dcfg) (l : list xapi) : list xapi := match front (dc_front d) l with OOk r => r | _ => [] end.
Definition analysed_for (d : dcfg) (l : list xapi) : list xapi * list (qname * IC.items) :=
  match analyze_functions_x d (front_for d l) with OOk p => p | _ => ([], []) end.
Definition kept_for (d : dcfg) (l : list xapi) : apivec := match kept d l with Some v => v | None => av_new end.
Definition free (n : string) (ps : list (string * ty)) : xapi :=
  named0 n (XFunction (Func n ps false None None VisPublic None None None None None None) PvOther None).
(** [struct Base { int x; }], something called [Bad] which was refused, and [f], which takes a [Base] and a pointer to [Bad]. *)
Definition demo5 : list xapi :=
  [named0 "Base" (XStruct (SD [BF (Some "x") true (TPath [] "i32" [])] false []) None);
   named0 "Bad" (XIgnored (EOther "Bad") (Some (CtxItem "Bad")));
   free "f" [("a", rooted "Base"); ("b", TPtr true (rooted "Bad"))]].
(** C85. A free function which the user lists can disappear without a trace. [f] takes a [Base] by value and so needs a wrapper; it also
    takes a pointer to something refused, and so is refused. Its error is filed under the name of the wrapper, which is not what the user
    listed, so garbage collection throws away the function and the error. Nothing is left, though the listed name was parsed. *)
Theorem c85_silent_refuted : exists d l l1 r found out x nm f pv fa,
  NoDup (map xname l) /\ Forall filed l /\
  front (dc_front d) l = OOk l1 /\ analyze_functions_x d l1 = OOk (r, found) /\ kept d l = Some out /\
  In x l /\ is_function x /\ ac_allow (dc_front d) (to_cpp_name (xname x)) = true /\
  In (XA nm (XFunction f pv (Some fa))) r /\ fa_kind fa = FFunction /\ xname x = QN [] (f_ident f) /\ fa_ignore fa = None /\
  ~ unnameable (ac_lexes (dc_front d)) (ac_reserved (dc_front d)) (map (erase d) r) (erase d (XA nm (XFunction f pv (Some fa)))) /\
  av_apis out = [].
Proof.
  eexists (dda (String.eqb "f")), demo5, (front_for (dda (String.eqb "f")) demo5), (fst (analysed_for (dda (String.eqb "f")) demo5)),
    (snd (analysed_for (dda (String.eqb "f")) demo5)), (kept_for (dda (String.eqb "f")) demo5), (free "f" _), (AN (q0 "f_autocxx_wrapper_0xabc") None), _, _, _.
  split; [repeat constructor; cbn; intuition discriminate|]. split.
  { repeat apply Forall_cons; try apply Forall_nil; split; try discriminate; intros e c [E|E]; try discriminate E. injection E as <- <-. reflexivity. }
  split; [vm_compute; reflexivity|]. split; [vm_compute; reflexivity|]. split; [vm_compute; reflexivity|].
  split; [right; right; left; reflexivity|]. split; [do 3 eexists; reflexivity|]. split; [reflexivity|].
  split; [vm_compute; in_run|]. split; [reflexivity|]. split; [reflexivity|]. split; [reflexivity|]. split; [|vm_compute; reflexivity].
  intros [(s & S1 & S2)|(b & s & B1 & B2 & B3 & B4)].
  - apply S2. apply acceptable_iff. cbn in S1. intuition (subst; reflexivity).
  - apply occupies_bridge in B3, B4. injection B3 as <-. vm_compute in B1.
    repeat (destruct B1 as [<-|B1]; [vm_compute in B4; try discriminate B4; apply B2; reflexivity|]). destruct B1.
Qed.
Print Assumptions c85_silent_refuted.

(** A case meeting the hypotheses: the user lists [Base], [f] and [g]. [Base] has a method [get], and a method [see] which takes a pointer to
    something refused, as does [f]; [g] and [h] take a pointer to [Base]. *)
Definition demo6 : list xapi :=
  [named0 "Base" (XStruct (SD [BF (Some "x") true (TPath [] "i32" [])] false []) None);
   named0 "Bad" (XIgnored (EOther "Bad") (Some (CtxItem "Bad")));
   named0 "Base_get" (XFunction (Func "get" [("this", TPtr false (rooted "Base"))] false (Some (TPath [] "i32" [])) None VisPublic None
     (Some (q0 "Base")) None None None None) PvOther None);
   named0 "Base_see" (XFunction (Func "see" [("this", TPtr false (rooted "Base")); ("b", TPtr true (rooted "Bad"))] false None None VisPublic None
     (Some (q0 "Base")) None None None None) PvOther None);
   free "f" [("b", TPtr true (rooted "Bad"))]; free "g" [("b", TPtr true (rooted "Base"))]; free "h" [("b", TPtr true (rooted "Base"))]].
Definition dd6 : dcfg := dda (fun s => String.eqb s "f" || String.eqb s "g" || String.eqb s "Base").
Example c85_case :
  NoDup (map xname demo6) /\ Forall filed demo6 /\ front (dc_front dd6) demo6 = OOk (front_for dd6 demo6) /\
  analyze_functions_x dd6 (front_for dd6 demo6) = OOk (analysed_for dd6 demo6) /\ kept dd6 demo6 = Some (kept_for dd6 demo6) /\
  (exists f pv fa, In (XA (AN (q0 "get") None) (XFunction f pv (Some fa))) (fst (analysed_for dd6 demo6)) /\ fa_kind fa = FMethod MNormal (q0 "Base") /\
     In (erase dd6 (XA (AN (q0 "get") None) (XFunction f pv (Some fa)))) (av_apis (kept_for dd6 demo6))) /\
  (exists f pv fa, In (XA (AN (q0 "see") None) (XFunction f pv (Some fa))) (fst (analysed_for dd6 demo6)) /\ fa_kind fa = FMethod MNormal (q0 "Base") /\
     reported (av_apis (kept_for dd6 demo6)) (AN (q0 "see") None)) /\
  (exists f pv fa, In (XA (AN (q0 "f") None) (XFunction f pv (Some fa))) (fst (analysed_for dd6 demo6)) /\ fa_kind fa = FFunction /\
     fa_rust fa = f_ident f /\ reported (av_apis (kept_for dd6 demo6)) (AN (q0 "f") None)) /\
  (exists f pv fa, In (XA (AN (q0 "g") None) (XFunction f pv (Some fa))) (fst (analysed_for dd6 demo6)) /\ fa_kind fa = FFunction /\
     fa_rust fa = f_ident f /\ In (erase dd6 (XA (AN (q0 "g") None) (XFunction f pv (Some fa)))) (av_apis (kept_for dd6 demo6))) /\
  ~ In (q0 "h") (map aname (av_apis (kept_for dd6 demo6))).
Proof.
  split; [repeat constructor; cbn; intuition discriminate|]. split.
  { repeat apply Forall_cons; try apply Forall_nil; split; try discriminate; intros e c [E|E]; try discriminate E. injection E as <- <-. reflexivity. }
  split; [vm_compute; reflexivity|]. split; [vm_compute; reflexivity|]. split; [vm_compute; reflexivity|].
  split; [do 3 eexists; split; [vm_compute; in_run|]; split; [reflexivity | vm_compute; in_run]|].
  split; [do 3 eexists; split; [vm_compute; in_run|]; split; [reflexivity|]; eexists (API (AN (q0 "see") None) (KIgnored _ _)); split; [vm_compute; in_run | split; [reflexivity | constructor]]|].
  split; [do 3 eexists; split; [vm_compute; in_run|]; split; [reflexivity|]; split; [reflexivity|]; eexists (API (AN (q0 "f") None) (KIgnored _ _)); split; [vm_compute; in_run | split; [reflexivity | constructor]]|].
  split; [do 3 eexists; split; [vm_compute; in_run|]; split; [reflexivity|]; split; [reflexivity | vm_compute; in_run]|].
  vm_compute. intros H. repeat (destruct H as [H|H]; [discriminate H|]). destruct H.
Qed.
