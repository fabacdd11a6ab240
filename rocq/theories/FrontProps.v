(** C78-C81: what becomes of typedefs, and of every API, between parsing and the analysis of functions; the
    casts and the allocation functions which are added. *)
From Verif Require Import Base QNamesModel KnownTypesModel KnownTypesProofs ApiModel NameCheckModel TypesModel TypesSpec SynthNamesProps
  TypedefsModel TypedefsProofs TypedefsProps CppTypesModel ConcreteNamesModel ConcreteNamesProofs TypeConverterModel
  TypeConverterProofs TypeConverterProps TypeConverterDepsProps ByValueModel ConversionModel SynthNamesModel
  FnAnalysisModel SubclassGenModel ApiVecModel FrontModel FrontProofs.

(** * C79: nothing is lost, nothing is invented *)

(** An API without what the phases find out about it. *)
Definition core (k : xkind) : xkind :=
  match k with
  | XTypedef i o _ => XTypedef i o None
  | XStruct d _ => XStruct d None
  | XFunction f pv _ => XFunction f pv None
  | k => k
  end.
Definition is_typedef (x : xapi) : Prop := exists i o a, x_kind x = XTypedef i o a.
(** What an API may become: itself, with more known about it; an ignored item, which has an error; for a
    typedef, an opaque type. *)
Definition fate (x y : xapi) : Prop :=
  x_info y = x_info x /\
  (core (x_kind y) = core (x_kind x) \/ x_ignored y = true \/ (is_typedef x /\ exists b, x_kind y = XOpaqueTypedef b)).
(** Names which are made up: of casts, of allocation functions, of template instantiations. *)
Definition made_up (n : qname) : Prop :=
  (exists a, qn_item n = a +++ "_autocxx_alloc") \/ (exists a, qn_item n = a +++ "_autocxx_free") \/
  (exists a b, qn_item n = "cast_" +++ a +++ "_to_" +++ b) \/ (exists a b, qn_item n = a +++ "AutocxxConcrete" +++ b).

Lemma classic_made n : made_up n \/ ~ made_up n.
Proof.
  unfold made_up. set (s := qn_item n).
  assert (D1 : forall p, (exists a, s = a +++ p) \/ ~ (exists a, s = a +++ p)).
  { intros p. destruct (ends_with p s) eqn:E; [left; apply ends_with_spec, E | right; intros H; apply ends_with_spec in H; congruence]. }
  assert (D2 : (exists a b, s = a +++ "AutocxxConcrete" +++ b) \/ ~ (exists a b, s = a +++ "AutocxxConcrete" +++ b)).
  { destruct (contains "AutocxxConcrete" s) eqn:E; [left; apply contains_spec, E | right; intros H; apply contains_spec in H; congruence]. }
  assert (D3 : (exists a b, s = "cast_" +++ a +++ "_to_" +++ b) \/ ~ (exists a b, s = "cast_" +++ a +++ "_to_" +++ b)).
  { destruct (starts_with "cast_" s) eqn:E.
    - apply starts_with_spec in E as (t & E). destruct (contains "_to_" t) eqn:C.
      + left. apply contains_spec in C as (a & b & ->). exists a, b. exact E.
      + right. intros (a & b & H). rewrite E in H. apply sapp_inj_l in H.
        assert (contains "_to_" t = true) by (apply contains_spec; eauto). congruence.
    - right. intros (a & b & H). assert (starts_with "cast_" s = true) by (apply starts_with_spec; eauto). congruence. }
  destruct (D1 "_autocxx_alloc"), (D1 "_autocxx_free"), D2, D3; tauto.
Qed.

Lemma fate_refl x : fate x x.
Proof. split; [reflexivity | left; reflexivity]. Qed.
Lemma fate_name x y : fate x y -> xname y = xname x.
Proof. intros [E _]. unfold xname. rewrite E. reflexivity. Qed.
Lemma core_ignored x y : core (x_kind y) = core (x_kind x) -> x_ignored x = x_ignored y.
Proof. unfold x_ignored. destruct (x_kind x), (x_kind y); cbn; congruence. Qed.
Lemma core_typedef x y : core (x_kind y) = core (x_kind x) -> is_typedef y -> is_typedef x.
Proof. intros E (i & o & a & T). rewrite T in E. cbn in E. destruct (x_kind x) eqn:K; cbn in E; try discriminate. exists item, old_tyname, an. exact K. Qed.
Lemma fate_trans x y z : fate x y -> fate y z -> fate x z.
Proof.
  intros [E1 H1] [E2 H2]. split; [congruence|].
  destruct H2 as [H2|[H2|(T & b & H2)]].
  - destruct H1 as [H1|[H1|(T & b & H1)]].
    + left. congruence.
    + right. left. apply core_ignored in H2. congruence.
    + right. right. split; [exact T|]. exists b. rewrite H1 in H2. destruct (x_kind z); cbn in H2; congruence.
  - right. left. exact H2.
  - destruct H1 as [H1|[H1|(T1 & b1 & H1)]].
    + right. right. split; [eapply core_typedef; eauto | eauto].
    + exfalso. unfold x_ignored in H1. destruct T as (i & o & a & T). rewrite T in H1. discriminate.
    + exfalso. destruct T as (i & o & a & T). congruence.
Qed.

(** The names of instantiations. *)
Lemma synthetic_name cs d cs' n : get_templated_typename cs d = (cs', n, true) ->
  exists a b, n = QN [] (a +++ "AutocxxConcrete" +++ b).
Proof.
  unfold get_templated_typename. destruct (sget d cs); [discriminate|]. cbv zeta. intros H.
  destruct (existsb _ cs); injection H as _ <-.
  - exists "", (dec (length cs)). reflexivity.
  - destruct (synthetic_ident_ends d) as (p & ->). exists p, "". rewrite app_empty_r. reflexivity.
Qed.
Lemma extra_names fuel env ns cs c t cs' a : convert_type fuel env ns cs c t = (cs', OOk a) ->
  forall n def rs, In (n, def, rs) (ann_extra a) -> exists p q, n = QN [] (p +++ "AutocxxConcrete" +++ q).
Proof.
  intros H. apply convert_type_rel in H. revert cs c t cs' a H.
  set (sound := fun a : annotated => forall n def rs, In (n, def, rs) (ann_extra a) -> exists p q, n = QN [] (p +++ "AutocxxConcrete" +++ q)).
  assert (X : (forall cs c t cs' a, conv_to env ns cs c t cs' a -> sound a) /\
    (forall cs c l i ar cs' a, plain_to env ns cs c l i ar cs' a -> sound a) /\
    (forall cs ar cs' la d x, args_to env ns cs ar cs' la d x -> True)).
  { apply conv_mutind; auto; try (intros; intros ? ? ? []; fail).
    - intros cs c lead id args cs' a b _ _ _ _ _ S A. destruct A; exact S.
    - intros cs c lead id args lead1 id1 orig tn deps rl ri ra l' i' q0 def cs' n made _ _ _ _ _ _ _ _ _ _ _ TC GT.
      intros n0 def0 rs I. cbn [ann_extra] in I. destruct made; [|destruct I]. destruct I as [I|[]]. injection I as <- <- <-.
      eapply synthetic_name; exact GT. }
  exact (proj1 X).
Qed.

Section Front.
Variable cfg : acfg.

Definition concrete_item (y : xapi) : Prop :=
  exists p q def rs, y = XA (AN (QN [] (p +++ "AutocxxConcrete" +++ q)) None) (XConcrete def rs).
(** An item among the APIs made by conversions: a concrete type, or the marker of a clash of two. *)
Definition made_item (y : xapi) : Prop :=
  concrete_item y \/ exists p q, y = xmarker cfg (QN [] (p +++ "AutocxxConcrete" +++ q)).
Lemma made_item_name y : made_item y -> made_up (xname y).
Proof.
  intros [(p & q & def & rs & ->)|(p & q & ->)]; right; right; right; exists p, q; reflexivity.
Qed.
Lemma extend_made v l : Forall made_item v -> Forall concrete_item l -> Forall made_item (xextend cfg v l).
Proof.
  intros Hv Hl. rewrite Forall_forall in *. intros y H. apply xextend_in in H as [H|[H|(x & H & E)]].
  - apply Hv, H.
  - left. apply Hl, H.
  - right. apply Hl in H as (p & q & def & rs & ->). exists p, q. exact E.
Qed.
Lemma of_concretes fuel env ns cs c t cs' a : convert_type fuel env ns cs c t = (cs', OOk a) ->
  Forall concrete_item (map of_concrete (ann_extra a)).
Proof.
  intros H. rewrite Forall_forall. intros y I. apply in_map_iff in I as ([[n def] rs] & <- & I).
  destruct (extra_names _ _ _ _ _ _ _ _ H _ _ _ I) as (p & q & ->). exists p, q, def, (Some rs). reflexivity.
Qed.

(** The APIs made while the loop runs. *)
Lemma x_convert_state {S} (I : S -> Prop) (f : S -> xapi -> S * out xapi) l : forall s s' r,
  (forall s s1 x o, I s -> f s x = (s1, o) -> I s1) -> I s -> x_convert cfg f s l = (s', r) -> I s'.
Proof.
  induction l as [|x l IH]; intros s s' r Hf Hs H; cbn in H.
  - injection H as <- _. exact Hs.
  - destruct (f s x) as [s1 o] eqn:F. pose proof (Hf _ _ _ _ Hs F) as H1.
    destruct o as [y|e| |]; try (injection H as <- _; exact H1).
    + destruct (x_convert cfg f s1 l) as [s2 q] eqn:C. pose proof (IH _ _ _ Hf H1 C) as H2. destruct q; injection H as <- _; exact H2.
    + destruct (x_convert cfg f s1 l) as [s2 q] eqn:C. pose proof (IH _ _ _ Hf H1 C) as H2. destruct q; injection H as <- _; exact H2.
Qed.

Lemma tdef_state env s s1 x o : Forall made_item (snd s) -> tdef_item cfg env s x = (s1, o) -> Forall made_item (snd s1).
Proof.
  intros M. unfold tdef_item. destruct (x_kind x); try (intros H; injection H as <- _; exact M).
  destruct item as [g t|t]; [|intros H; injection H as <- _; exact M].
  unfold get_replacement_typedef. destruct (Nat.ltb 0 g); [intros H; injection H as <- _; exact M|].
  destruct (ac_fatal cfg (xname x)); [intros H; injection H as <- _; exact M|].
  destruct (convert_type _ _ _ _ _ _) as [cs [a|e| |]] eqn:C; try (intros H; injection H as <- _; exact M).
  set (b := match ann_ty a with TPath _ _ _ => _ | _ => _ end). destruct b as [[|]|]; intros H; injection H as <- _; cbn; try exact M.
  apply extend_made; [exact M | eapply of_concretes; exact C].
Qed.
Lemma tdef_fate env s s1 x y : tdef_item cfg env s x = (s1, OOk y) -> fate x y.
Proof.
  unfold tdef_item. destruct (x_kind x) eqn:K; try (intros H; injection H as _ <-; apply fate_refl).
  destruct item as [g t|t].
  - unfold get_replacement_typedef. destruct (Nat.ltb 0 g); [intros H; discriminate|].
    destruct (ac_fatal cfg (xname x)); [intros H; discriminate|].
    destruct (convert_type _ _ _ _ _ _) as [cs [a|e| |]] eqn:C; try (intros H; discriminate).
    set (b := match ann_ty a with TPath _ _ _ => _ | _ => _ end). destruct b as [[|]|]; intros H; try discriminate. injection H as _ <-.
    split; [reflexivity | left; cbn; rewrite K; reflexivity].
  - intros H. injection H as _ <-. split; [reflexivity | left; cbn; rewrite K; reflexivity].
Qed.
Lemma error_fate x e : fate x (x_error cfg x e).
Proof. split; [reflexivity | right; left; reflexivity]. Qed.

Lemma struct_fields_extra fuel env ns c fs : forall cs acc cs' fo,
  get_struct_field_types (fun cs => convert_type fuel env ns cs c) cs fs acc = (cs', OOk fo) ->
  Forall concrete_item (map of_concrete (fo_extra acc)) -> Forall concrete_item (map of_concrete (fo_extra fo)).
Proof.
  induction fs as [|f fs IH]; intros cs acc cs' fo H A.
  - cbn in H. injection H as _ <-. exact A.
  - cbn [get_struct_field_types] in H. destruct (convert_type _ _ _ _ _ _) as [cs1 [a|e| |]] eqn:C; try discriminate.
    + assert (A2 : Forall concrete_item (map of_concrete (fo_extra acc ++ ann_extra a))).
      { rewrite map_app. apply Forall_app. split; [exact A | eapply of_concretes; exact C]. }
      destruct (_ || _); [eapply IH; [exact H | exact A2]|].
      destruct (match ann_ty a with TPath _ _ _ => _ | _ => _ end); [|discriminate].
      eapply IH; [exact H | exact A2].
    + eapply IH; [exact H | exact A].
Qed.
Lemma analyze_struct_extra fuel env ns c db cs al fatal n g rv fs cs' pa made :
  analyze_struct db (fun cs => convert_type fuel env ns cs c) cs al fatal n g rv fs = (cs', OOk (pa, made)) ->
  Forall concrete_item (map of_concrete made).
Proof.
  unfold analyze_struct. destruct fatal; [discriminate|]. destruct (get_bases fs); try discriminate.
  destruct (get_struct_field_types _ _ _ _) as [cs1 [fo|e| |]] eqn:G; cbn [tbind]; try discriminate.
  assert (E : Forall concrete_item (map of_concrete (fo_extra fo))) by (eapply struct_fields_extra; [exact G | constructor]).
  destruct (existsb fi_opaque (fo_info fo)); [intros H; injection H as _ _ <-; exact E|].
  destruct (is_pod db n); [|intros H; injection H as _ _ <-; exact E].
  destruct rv; [discriminate|]. destruct (fo_errors fo); [|discriminate]. intros H. injection H as _ _ <-. exact E.
Qed.
Lemma pod_state db env s s1 x o : Forall made_item (snd s) -> pod_item cfg db env s x = (s1, o) -> Forall made_item (snd s1).
Proof.
  intros M. unfold pod_item. destruct (x_kind x); try (intros H; injection H as <- _; exact M).
  destruct (analyze_struct _ _ _ _ _ _ _ _ _) as [cs [[pa made]|e| |]] eqn:G; intros H; injection H as <- _; cbn; try exact M.
  - apply extend_made; [exact M | eapply analyze_struct_extra; exact G].
  - apply extend_made; [exact M|]. unfold struct_extra. destruct (ac_fatal cfg (xname x)); [constructor|].
    destruct (get_struct_field_types _ _ _ _) as [cs1 [fo|e2| |]] eqn:F; try constructor.
    eapply struct_fields_extra; [exact F | constructor].
Qed.
Lemma pod_fate db env s s1 x y : pod_item cfg db env s x = (s1, OOk y) -> fate x y.
Proof.
  unfold pod_item. destruct (x_kind x) eqn:K; try (intros H; injection H as _ <-; apply fate_refl).
  - destruct (ac_fatal cfg (xname x)); intros H; [discriminate|]. injection H as _ <-. apply fate_refl.
  - destruct (analyze_struct _ _ _ _ _ _ _ _ _) as [cs [[pa made]|e| |]] eqn:G; intros H; try discriminate.
    injection H as _ <-. split; [reflexivity | left; cbn; rewrite K; reflexivity].
Qed.

(** A phase which maps the APIs one by one and appends the ones made. *)
Lemma phase_fates l r0 extra : NoDup (map xname l) -> Forall2 fate l r0 -> Forall made_item extra ->
  let r := xextend cfg (xextend cfg [] r0) extra in
  NoDup (map xname r) /\
  (forall x, In x l -> ~ made_up (xname x) -> exists y, In y r /\ fate x y) /\
  (forall y, In y r -> made_item y \/ exists x, In x l /\ fate x y).
Proof.
  intros ND F M r.
  assert (EN : map xname r0 = map xname l).
  { clear - F. induction F as [|a b l r H F IH]; [reflexivity|]. cbn. rewrite IH, (fate_name _ _ H). reflexivity. }
  assert (ND0 : NoDup (map xname r0)) by (rewrite EN; exact ND).
  assert (ER : r = xextend cfg r0 extra) by (unfold r; rewrite xextend_id by exact ND0; reflexivity).
  clearbody r. subst r. split; [apply xextend_nodup, ND0|]. split.
  - intros x Hx NM. destruct (Forall2_in_l _ _ _ _ F Hx) as (y & Hy & Fy). exists y. split; [|exact Fy].
    apply xextend_keeps; [exact Hy|]. intros I. apply NM. rewrite <- (fate_name _ _ Fy).
    apply in_map_iff in I as (z & Ez & Iz). rewrite <- Ez. rewrite Forall_forall in M. apply made_item_name, M, Iz.
  - intros y Hy. rewrite Forall_forall in M. apply xextend_in in Hy as [H|[H|(x & H & E)]].
    + right. destruct (Forall2_in_r _ _ _ _ F H) as (x & Hx & Fx). exists x. auto.
    + left. apply M, H.
    + left. apply M in H as [(p & q & def & rs & ->)|(p & q & ->)]; right; exists p, q; exact E.
Qed.
Lemma tdef_fates l r : NoDup (map xname l) -> convert_typedef_targets cfg l = OOk r ->
  NoDup (map xname r) /\ (forall x, In x l -> ~ made_up (xname x) -> exists y, In y r /\ fate x y) /\
  (forall y, In y r -> made_item y \/ exists x, In x l /\ fate x y).
Proof.
  intros ND H. unfold convert_typedef_targets in H.
  destruct (x_convert _ _ _ _) as [[cs extra] [r0|e| |]] eqn:C; try discriminate. injection H as <-.
  apply phase_fates; [exact ND | |].
  - eapply x_convert_forall2; [| |exact C]; intros; [eapply tdef_fate; eauto | apply error_fate].
  - change (Forall made_item (snd (cs, extra))). eapply (x_convert_state (fun s => Forall made_item (snd s))); [| |exact C].
    + intros. eapply tdef_state; eauto.
    + constructor.
Qed.
Lemma pod_fates l r : NoDup (map xname l) -> analyze_pod_apis cfg l = OOk r ->
  NoDup (map xname r) /\ (forall x, In x l -> ~ made_up (xname x) -> exists y, In y r /\ fate x y) /\
  (forall y, In y r -> made_item y \/ exists x, In x l /\ fate x y).
Proof.
  intros ND H. unfold analyze_pod_apis in H. destruct (new_from_apis _ _ _) as [db| | |]; try discriminate.
  destruct (x_convert _ _ _ _) as [[cs extra] [r0|e| |]] eqn:C; try discriminate. injection H as <-.
  apply phase_fates; [exact ND | |].
  - eapply x_convert_forall2; [| |exact C]; intros; [eapply pod_fate; eauto | apply error_fate].
  - change (Forall made_item (snd (cs, extra))). eapply (x_convert_state (fun s => Forall made_item (snd s))); [| |exact C].
    + intros. eapply pod_state; eauto.
    + constructor.
Qed.
Lemma replace_fate ig fw x : fate x (replace_hopeless cfg ig fw x).
Proof.
  unfold replace_hopeless. destruct (x_kind x) eqn:K; try apply fate_refl.
  - destruct err as [[e c]|]; [|apply fate_refl]. split; [reflexivity | right; left; reflexivity].
  - destruct an as [[k deps]|]; [|apply fate_refl].
    destruct (negb (disjoint_q ig deps)).
    + destruct (x_nested x); split; try reflexivity; [right; left; reflexivity | right; right; split; [|eexists; reflexivity]].
      eexists _, _, _. exact K.
    + destruct (negb (disjoint_q fw deps)); [|apply fate_refl]. split; [reflexivity|]. right. right. split; [|eexists; reflexivity].
      eexists _, _, _. exact K.
Qed.
Lemma hopeless_list l : NoDup (map xname l) -> exists ig fw,
  ig = map xname (filter x_ignored l) /\
  fw = flat_map (fun x => match x_kind x with XForward (Some _) => [xname x] | _ => [] end) l /\
  replace_hopeless_typedef_targets cfg l = map (replace_hopeless cfg ig fw) l /\
  map xname (replace_hopeless_typedef_targets cfg l) = map xname l.
Proof.
  intros ND. eexists. eexists. split; [reflexivity|]. split; [reflexivity|]. unfold replace_hopeless_typedef_targets.
  assert (E : forall ig fw, map xname (map (replace_hopeless cfg ig fw) l) = map xname l).
  { intros ig fw. rewrite map_map. apply map_ext. intros x. apply fate_name, replace_fate. }
  rewrite xextend_id by (rewrite E; exact ND). split; [reflexivity | apply E].
Qed.

(** Adding items in front of each one. *)
Lemma add_front (g : xapi -> list xapi) l : NoDup (map xname l) ->
  (forall x y, In x l -> In y (g x) -> made_up (xname y)) ->
  let r := xextend cfg [] (flat_map (fun x => g x ++ [x]) l) in
  NoDup (map xname r) /\ (forall x, In x l -> ~ made_up (xname x) -> In x r) /\
  (forall y, In y r -> In y l \/ (exists x, In x l /\ In y (g x)) \/ (exists z, y = xmarker cfg (xname z) /\ (In z l \/ exists x, In x l /\ In z (g x)))).
Proof.
  intros ND M r. split; [apply xextend_nodup; constructor|]. split.
  - intros x Hx NM. apply in_split in Hx as (l1 & l2 & E). unfold r. rewrite E, flat_map_app. cbn [flat_map].
    rewrite <- app_assoc. rewrite app_assoc.
    replace ((flat_map (fun x0 => g x0 ++ [x0]) l1 ++ g x) ++ [x] ++ flat_map (fun x0 => g x0 ++ [x0]) l2)
      with ((flat_map (fun x0 => g x0 ++ [x0]) l1 ++ g x) ++ x :: flat_map (fun x0 => g x0 ++ [x0]) l2) by reflexivity.
    assert (N12 : ~ In (xname x) (map xname l1) /\ ~ In (xname x) (map xname l2)).
    { rewrite E, map_app in ND. cbn in ND. apply NoDup_remove_2 in ND. rewrite in_app_iff in ND. tauto. }
    assert (P : forall m, incl m l -> ~ In (xname x) (map xname m) -> ~ In (xname x) (map xname (flat_map (fun x0 => g x0 ++ [x0]) m))).
    { intros m Im N I. apply in_map_iff in I as (z & Ez & I). apply in_flat_map in I as (x0 & I0 & I). apply in_app_iff in I as [I|[I|[]]].
      - apply NM. rewrite <- Ez. eapply M; [apply Im, I0 | exact I].
      - apply N. subst x0. rewrite <- Ez. apply in_map, I0. }
    apply xextend_once; [intros []| |].
    + rewrite map_app, in_app_iff. intros [I|I]; [revert I; apply P; [intros z Hz; rewrite E; apply in_app_iff; left; exact Hz | tauto]|].
      apply in_map_iff in I as (z & Ez & I). apply NM. rewrite <- Ez. eapply M; [|exact I]. rewrite E. apply in_app_iff. right. left. reflexivity.
    + apply P; [intros z Hz; rewrite E; apply in_app_iff; right; right; exact Hz | tauto].
  - intros y H. apply xextend_in in H as [[]|[H|(z & H & Ez)]].
    + apply in_flat_map in H as (x & Hx & H). apply in_app_iff in H as [H|[H|[]]]; [right; left; eauto | left; subst; exact Hx].
    + right. right. exists z. split; [exact Ez|]. apply in_flat_map in H as (x & Hx & H).
      apply in_app_iff in H as [H|[H|[]]]; [right; eauto | left; subst; exact Hx].
Qed.
Lemma cast_made x y : In y (casts_for x) -> made_up (xname y).
Proof.
  unfold casts_for. destruct (x_kind x); try (intros []; fail). destruct an as [pa|]; [|intros []].
  intros H. apply in_map_iff in H as (b & <- & _). right. right. left. exists (qn_item (xname x)), (qn_item b).
  cbn. rewrite app_empty_r. reflexivity.
Qed.
Lemma alloc_made x y : In y (allocs_for x) -> made_up (xname y).
Proof.
  unfold allocs_for. destruct (x_kind x); try (intros []; fail).
  - intros [<-|[<-|[]]]; [left | right; left]; exists (qn_item (xname x)); reflexivity.
  - intros [<-|[<-|[]]]; [left | right; left]; exists (qn_item (subclass_cpp (xname x))); reflexivity.
Qed.

(** Every API found by parsing whose name is not one that autocxx makes up is still there when functions are
    analysed: itself, ignored with an error, or (a typedef) as an opaque type. Names stay unique. *)
Theorem c79_nothing_lost_partial : forall l r, NoDup (map xname l) -> front cfg l = OOk r ->
  NoDup (map xname r) /\
  forall x, In x l -> ~ made_up (xname x) -> exists y, In y r /\ fate x y.
Proof.
  intros l r ND H. unfold front in H. destruct (convert_typedef_targets cfg l) as [l1|e| |] eqn:T; try discriminate.
  destruct (analyze_pod_apis cfg l1) as [l2|e| |] eqn:P; try discriminate. injection H as <-.
  destruct (tdef_fates _ _ ND T) as (ND1 & F1 & _). destruct (pod_fates _ _ ND1 P) as (ND2 & F2 & _).
  destruct (hopeless_list _ ND2) as (ig & fw & _ & _ & E3 & N3). assert (ND3 : NoDup (map xname (replace_hopeless_typedef_targets cfg l2))) by (rewrite N3; exact ND2).
  destruct (add_front casts_for _ ND3 (fun x y _ => cast_made x y)) as (ND4 & F4 & _).
  destruct (add_front allocs_for _ ND4 (fun x y _ => alloc_made x y)) as (ND5 & F5 & _).
  split; [exact ND5|]. intros x Hx NM. destruct (F1 x Hx NM) as (y1 & H1 & A1).
  pose proof (fate_name _ _ A1) as EN1. destruct (F2 y1 H1) as (y2 & H2 & A2); [rewrite EN1; exact NM|].
  pose proof (fate_name _ _ A2) as EN2. set (y3 := replace_hopeless cfg ig fw y2).
  assert (A3 : fate y2 y3) by apply replace_fate. pose proof (fate_name _ _ A3) as EN3.
  assert (NM3 : ~ made_up (xname y3)) by (rewrite EN3, EN2, EN1; exact NM).
  exists y3. split; [|eapply fate_trans; [exact A1 | eapply fate_trans; [exact A2 | exact A3]]].
  apply F5; [|exact NM3]. apply F4; [|exact NM3]. rewrite E3. apply in_map, H2.
Qed.

(** Where the names come from. *)
Definition concrete_name (n : qname) : Prop := exists a b, n = QN [] (a +++ "AutocxxConcrete" +++ b).
Definition cast_name (n : qname) : Prop := exists a b, qn_item n = "cast_" +++ a +++ "_to_" +++ b.
Lemma made_item_concrete y : made_item y -> concrete_name (xname y).
Proof. intros [(p & q & def & rs & ->)|(p & q & ->)]; exists p, q; reflexivity. Qed.
Lemma front_stages l r : NoDup (map xname l) -> front cfg l = OOk r -> exists l1 l2,
  convert_typedef_targets cfg l = OOk l1 /\ analyze_pod_apis cfg l1 = OOk l2 /\
  r = create_alloc_and_frees cfg (add_casts cfg (replace_hopeless_typedef_targets cfg l2)) /\
  NoDup (map xname l1) /\ NoDup (map xname l2) /\ NoDup (map xname (replace_hopeless_typedef_targets cfg l2)) /\
  NoDup (map xname (add_casts cfg (replace_hopeless_typedef_targets cfg l2))).
Proof.
  intros ND H. unfold front in H. destruct (convert_typedef_targets cfg l) as [l1|e| |] eqn:T; try discriminate.
  destruct (analyze_pod_apis cfg l1) as [l2|e| |] eqn:P; try discriminate. injection H as <-.
  destruct (tdef_fates _ _ ND T) as (ND1 & _). destruct (pod_fates _ _ ND1 P) as (ND2 & _).
  destruct (hopeless_list _ ND2) as (ig & fw & _ & _ & E3 & N3).
  exists l1, l2. split; [reflexivity|]. split; [exact P|]. split; [reflexivity|]. split; [exact ND1|]. split; [exact ND2|].
  split; [rewrite N3; exact ND2|]. apply xextend_nodup. constructor.
Qed.
(** An entry of one's own name is oneself, in a list without two of one name. *)
Lemma same_entry (l : list xapi) x y : NoDup (map xname l) -> In x l -> In y l -> xname x = xname y -> x = y.
Proof.
  induction l as [|z l IH]; intros ND Hx Hy E; [destruct Hx|]. cbn in ND. inversion ND as [|? ? N ND1]; subst.
  destruct Hx as [->|Hx], Hy as [->|Hy]; auto; exfalso; apply N; [rewrite E | rewrite <- E]; apply in_map; assumption.
Qed.
Lemma added_origin (g : xapi -> list xapi) l y : NoDup (map xname l) ->
  (forall x y, In x l -> In y (g x) -> made_up (xname y)) ->
  In y (xextend cfg [] (flat_map (fun x => g x ++ [x]) l)) -> ~ made_up (xname y) -> In y l.
Proof.
  intros ND M H NM. destruct (add_front g l ND M) as (NDr & K & O). destruct (O y H) as [A|[(x & Hx & A)|(z & E & [A|(x & Hx & A)])]].
  - exact A.
  - exfalso. apply NM. eapply M; eauto.
  - rewrite E in NM. cbn in NM. assert (Hz : In z (xextend cfg [] (flat_map (fun x => g x ++ [x]) l))) by (apply K; assumption).
    rewrite (same_entry _ y z NDr H Hz); [exact A | rewrite E; reflexivity].
  - exfalso. apply NM. rewrite E. cbn. eapply M; eauto.
Qed.

(** Every API which functions are analysed with was found by parsing, or has a made-up name. *)
Theorem c79_nothing_invented : forall l r, NoDup (map xname l) -> front cfg l = OOk r ->
  forall y, In y r -> made_up (xname y) \/ exists x, In x l /\ fate x y.
Proof.
  intros l r ND H y Hy. destruct (front_stages l r ND H) as (l1 & l2 & T & P & -> & ND1 & ND2 & ND3 & ND4).
  destruct (tdef_fates _ _ ND T) as (_ & _ & O1). destruct (pod_fates _ _ ND1 P) as (_ & _ & O2).
  destruct (hopeless_list _ ND2) as (ig & fw & _ & _ & E3 & _).
  destruct (classic_made (xname y)) as [M|NM]; [left; exact M | right].
  assert (H4 : In y (add_casts cfg (replace_hopeless_typedef_targets cfg l2))) by (eapply added_origin with (g := allocs_for); eauto using alloc_made).
  assert (H3 : In y (replace_hopeless_typedef_targets cfg l2)) by (eapply added_origin with (g := casts_for); eauto using cast_made).
  rewrite E3 in H3. apply in_map_iff in H3 as (y2 & E & H2). pose proof (replace_fate ig fw y2) as F3. rewrite E in F3.
  assert (NM2 : ~ made_up (xname y2)) by (rewrite <- (fate_name _ _ F3); exact NM).
  destruct (O2 y2 H2) as [A|(y1 & H1 & F2)]; [exfalso; apply NM2, made_item_name, A|].
  assert (NM1 : ~ made_up (xname y1)) by (rewrite <- (fate_name _ _ F2); exact NM2).
  destruct (O1 y1 H1) as [A|(x & Hx & F1)]; [exfalso; apply NM1, made_item_name, A|].
  exists x. split; [exact Hx|]. eapply fate_trans; [exact F1 | eapply fate_trans; [exact F2 | exact F3]].
Qed.

(** * C78: typedefs *)

(** As parsing leaves the APIs: typedefs are not analysed yet. *)
Definition parsed (l : list xapi) : Prop := forall x i o a, In x l -> x_kind x = XTypedef i o a -> a = None.
Lemma parsed_env l : parsed l -> tc_typedefs (tc_new cfg l) = [].
Proof.
  intros P. unfold tc_new. cbn [tc_typedefs].
  assert (X : forall m l', incl l' l -> fold_left (fun m x => match x_kind x with XTypedef _ _ (Some (k, _)) => qset (xname x) (td_target k) m | _ => m end) l' m = m).
  { intros m l'. revert m. induction l' as [|x l' IH]; intros m I; [reflexivity|]. cbn.
    assert (N : match x_kind x with XTypedef _ _ (Some (k, _)) => qset (xname x) (td_target k) m | _ => m end = m).
    { destruct (x_kind x) eqn:K; try reflexivity. assert (E := P x _ _ _ (I x (or_introl eq_refl)) K). subst an. reflexivity. }
    rewrite N. apply IH. intros z Hz. apply I. right. exact Hz. }
  apply X, incl_refl.
Qed.
(** What the typedef phase records. *)
Definition td_sound (l0 : list xapi) (y : xapi) : Prop := forall g t o k deps,
  x_kind y = XTypedef (TdType g t) o (Some (k, deps)) -> g = 0 /\ exists cs cs' a,
    convert_type (ac_fuel cfg) (tc_new cfg l0) (qn_ns (xname y)) cs WithinReference t = (cs', OOk a) /\
    k = TdType g (ann_ty a) /\ deps = ann_deps a /\
    forall l i args, ann_ty a = TPath l i args -> exists q, path_name l i = Some q /\ q <> xname y.
Lemma td_sound_new l0 s s1 x y : tdef_item cfg (tc_new cfg l0) s x = (s1, OOk y) -> td_sound l0 y.
Proof.
  unfold tdef_item. destruct (x_kind x) eqn:K; try (intros H; injection H as _ <-; intros g t o k dps K2; congruence).
  destruct item as [g t|t]; [|intros H; injection H as _ <-; intros g2 t2 o k deps K2; cbn in K2; congruence].
  unfold get_replacement_typedef. destruct (Nat.ltb 0 g) eqn:G; [intros H; discriminate|].
  destruct (ac_fatal cfg (xname x)); [intros H; discriminate|].
  destruct (convert_type _ _ _ _ _ _) as [cs [a|e| |]] eqn:C; try (intros H; discriminate).
  set (b := match ann_ty a with TPath _ _ _ => _ | _ => _ end). destruct b as [[|]|] eqn:B; intros H; try discriminate.
  injection H as _ <-. intros g2 t2 o k deps K2. cbn in K2. injection K2 as <- <- <- <- <-.
  apply Nat.ltb_ge in G. split; [lia|]. exists (fst s), cs, a. split; [exact C|]. split; [reflexivity|]. split; [reflexivity|].
  intros l i args E. unfold b in B. rewrite E in B. destruct (path_name l i) as [q|]; [|discriminate]. exists q. split; [reflexivity|].
  injection B as B. intros ->. unfold xname in B; cbn in B. rewrite qn_eqb_refl in B. discriminate.
Qed.
Lemma td_sound_kind l0 x y : x_info x = x_info y -> x_kind x = x_kind y -> td_sound l0 x -> td_sound l0 y.
Proof. intros E1 E2 H g t o k deps K. unfold xname in *. rewrite <- E1. rewrite <- E2 in K. apply (H g t o k deps K). Qed.
Lemma made_sound l0 y : made_item y -> td_sound l0 y.
Proof. intros [(p & q & def & rs & ->)|(p & q & ->)] g t o k deps K; discriminate. Qed.
Lemma tdef_sound l l1 : NoDup (map xname l) -> convert_typedef_targets cfg l = OOk l1 -> forall y, In y l1 -> td_sound l y.
Proof.
  intros ND H y Hy. unfold convert_typedef_targets in H.
  destruct (x_convert _ _ _ _) as [[cs extra] [r0|e| |]] eqn:C; try discriminate. injection H as <-.
  assert (F : Forall2 (fun _ y => td_sound l y) l r0).
  { eapply x_convert_forall2; [| |exact C]; intros; [eapply td_sound_new; eauto|]. intros g t o k deps K. discriminate. }
  assert (M : Forall made_item extra).
  { change (Forall made_item (snd (cs, extra))). eapply (x_convert_state (fun s => Forall made_item (snd s))); [| |exact C].
    - intros. eapply tdef_state; eauto.
    - constructor. }
  assert (X : forall z, In z (xextend cfg [] r0) -> td_sound l z).
  { intros z Hz. apply xextend_in in Hz as [[]|[Hz|(w & _ & ->)]].
    - destruct (Forall2_in_r _ _ _ _ F Hz) as (x & _ & Hx). exact Hx.
    - intros g t o k deps K. discriminate. }
  rewrite Forall_forall in M. apply xextend_in in Hy as [Hy|[Hy|(w & _ & ->)]]; [apply X, Hy | apply made_sound, M, Hy|].
  intros g t o k deps K. discriminate.
Qed.
Lemma pod_keeps l1 l2 : NoDup (map xname l1) -> analyze_pod_apis cfg l1 = OOk l2 -> forall y i o a, In y l2 -> x_kind y = XTypedef i o a -> In y l1.
Proof.
  intros ND H y i o a Hy K. unfold analyze_pod_apis in H. destruct (new_from_apis _ _ _) as [db| | |]; try discriminate.
  destruct (x_convert _ _ _ _) as [[cs extra] [r0|e| |]] eqn:C; try discriminate. injection H as <-.
  assert (F : Forall2 (fun x y => forall i o a, x_kind y = XTypedef i o a -> y = x) l1 r0).
  { eapply x_convert_forall2; [| |exact C].
    - intros s s1 x z E _ i2 o2 a2 K2. unfold pod_item in E. destruct (x_kind x) eqn:Kx; try (injection E as _ <-; reflexivity).
      + destruct (ac_fatal cfg (xname x)); [discriminate|]. injection E as _ <-. reflexivity.
      + destruct (analyze_struct _ _ _ _ _ _ _ _ _) as [cs1 [[pa made]|e| |]]; try discriminate. injection E as _ <-. cbn in K2. discriminate.
    - intros s s1 x e E _ i2 o2 a2 K2. discriminate. }
  assert (M : Forall made_item extra).
  { change (Forall made_item (snd (cs, extra))). eapply (x_convert_state (fun s => Forall made_item (snd s))); [| |exact C].
    - intros. eapply pod_state; eauto.
    - constructor. }
  rewrite Forall_forall in M. apply xextend_in in Hy as [Hy|[Hy|(w & _ & ->)]]; [|apply M in Hy as [(p & q & def & rs & ->)|(p & q & ->)]; discriminate | discriminate].
  apply xextend_in in Hy as [[]|[Hy|(w & _ & ->)]]; [|discriminate].
  destruct (Forall2_in_r _ _ _ _ F Hy) as (x & Hx & E). rewrite (E _ _ _ K). exact Hx.
Qed.
(** The typedefs after all phases are those which the pass on hopeless targets left alone. *)
Lemma typedef_survivor l r y i o a : NoDup (map xname l) -> front cfg l = OOk r -> In y r -> x_kind y = XTypedef i o a -> exists l1 l2,
  convert_typedef_targets cfg l = OOk l1 /\ analyze_pod_apis cfg l1 = OOk l2 /\ In y l1 /\ In y l2 /\
  forall k deps, a = Some (k, deps) ->
    disjoint_q (map xname (filter x_ignored l2)) deps = true /\
    disjoint_q (flat_map (fun x => match x_kind x with XForward (Some _) => [xname x] | _ => [] end) l2) deps = true.
Proof.
  intros ND H Hy K. destruct (front_stages l r ND H) as (l1 & l2 & T & P & -> & ND1 & ND2 & ND3 & ND4).
  exists l1, l2. split; [exact T|]. split; [exact P|].
  assert (G : forall g m, (forall x z, In x m -> In z (g x) -> exists f pv an, x_kind z = XFunction f pv an) ->
    In y (xextend cfg [] (flat_map (fun x => g x ++ [x]) m)) -> In y m).
  { intros g m Hg I. apply xextend_in in I as [[]|[I|(w & _ & ->)]]; [|discriminate].
    apply in_flat_map in I as (x & Hx & I). apply in_app_iff in I as [I|[I|[]]]; [|subst; exact Hx].
    destruct (Hg x y Hx I) as (f & pv & an & E). congruence. }
  apply G in Hy. 2:{ intros x z _ Hz. unfold allocs_for in Hz. destruct (x_kind x); try destruct Hz as [<-|[<-|[]]]; try destruct Hz; eexists _, _, _; reflexivity. }
  apply G in Hy. 2:{ intros x z _ Hz. unfold casts_for in Hz. destruct (x_kind x); try destruct Hz. destruct an; [|destruct Hz].
    apply in_map_iff in Hz as (b & <- & _). eexists _, _, _; reflexivity. }
  destruct (hopeless_list _ ND2) as (ig & fw & -> & -> & E3 & _). rewrite E3 in Hy. apply in_map_iff in Hy as (y2 & E & H2).
  unfold replace_hopeless in E. destruct (x_kind y2) eqn:K2; try (subst y; rewrite K in K2; try discriminate).
  - destruct err as [[e c]|]; subst y; [discriminate | congruence].
  - destruct an as [[k deps]|].
    + destruct (disjoint_q (map xname (filter x_ignored l2)) deps) eqn:D1; cbn [negb] in E.
      * match type of E with context [negb ?d] => destruct d eqn:D2 end; cbn [negb] in E; subst y; [|discriminate].
        split; [eapply pod_keeps; eauto|]. split; [exact H2|]. intros k0 deps0 ->. rewrite K in K2. injection K2 as -> -> -> ->. auto.
      * destruct (x_nested y2); subst y; discriminate.
    + subst y. split; [eapply pod_keeps; eauto|]. split; [exact H2|]. intros k0 deps0 ->. congruence.
Qed.

Lemma disjoint_q_spec l m : disjoint_q l m = true <-> forall q, In q l -> ~ In q m.
Proof.
  unfold disjoint_q. rewrite negb_true_iff. split.
  - intros H q Hl Hm. assert (E : existsb (fun q => qmem q m) l = true) by (apply existsb_exists; exists q; split; [exact Hl | apply qmem_In, Hm]). congruence.
  - intros H. destruct (existsb _ l) eqn:E; [|reflexivity]. apply existsb_exists in E as (q & Hl & Hm). apply qmem_In in Hm. exfalso. eapply H; eauto.
Qed.

(** The target of a typedef which functions are analysed with never mentions an item which parsing or the
    analysis of types refused; what it does mention and is refused is a nested typedef, refused at the same
    moment. *)
Theorem c78_targets_usable_partial : forall l r y g t o k deps ld id q z,
  NoDup (map xname l) -> parsed l -> front cfg l = OOk r ->
  In y r -> x_kind y = XTypedef (TdType g t) o (Some (k, deps)) ->
  path_in ld id (td_target k) -> refers_to (TPath ld id []) q -> ~ known_name q -> ~ made_up q ->
  In z r -> xname z = q -> x_ignored z = true ->
  exists c, x_kind z = XIgnored (EOther "NestedOpaqueTypedef") c /\ exists x, In x l /\ is_typedef x /\ x_info x = x_info z.
Proof.
  intros l r y g t o k deps ld id q z ND PA H Hy K PI RF NK NM Hz Ez Iz.
  destruct (typedef_survivor _ _ _ _ _ _ ND H Hy K) as (l1 & l2 & T & P & Y1 & Y2 & D). destruct (D k deps eq_refl) as [D1 _].
  destruct (tdef_sound _ _ ND T _ Y1 _ _ _ _ _ K) as (_ & cs & cs' & a & C & -> & -> & _).
  assert (Q : In q (ann_deps a)).
  { assert (A := c61_dependencies_complete _ _ _ _ _ _ _ _ ltac:(rewrite (parsed_env l PA); constructor) C ld id q PI RF).
    destruct A as [A|[A|(al & n & tgt & l' & id' & _ & _ & A & _)]]; [contradiction | exact A|]. rewrite (parsed_env l PA) in A. destruct A. }
  destruct (front_stages l r ND H) as (l1' & l2' & T' & P' & -> & ND1 & ND2 & ND3 & ND4).
  assert (l1' = l1) by congruence. subst l1'. assert (l2' = l2) by congruence. subst l2'.
  assert (NMz : ~ made_up (xname z)) by (rewrite Ez; exact NM).
  assert (H4 : In z (add_casts cfg (replace_hopeless_typedef_targets cfg l2))) by (eapply added_origin with (g := allocs_for); eauto using alloc_made).
  assert (H3 : In z (replace_hopeless_typedef_targets cfg l2)) by (eapply added_origin with (g := casts_for); eauto using cast_made).
  destruct (hopeless_list _ ND2) as (ig & fw & EI & EF & E3 & _). rewrite E3 in H3. apply in_map_iff in H3 as (z2 & E & H2).
  assert (EN : xname z2 = q) by (rewrite <- Ez, <- E; symmetry; apply fate_name, replace_fate).
  rewrite disjoint_q_spec in D1. destruct (D _ _ eq_refl) as [_ D2]. rewrite disjoint_q_spec in D2.
  assert (NI : x_ignored z2 = false).
  { destruct (x_ignored z2) eqn:I; [|reflexivity]. exfalso. apply (D1 q); [|exact Q]. rewrite <- EN. apply in_map, filter_In. auto. }
  assert (NF : forall e, x_kind z2 <> XForward (Some e)).
  { intros e Ke. apply (D2 q); [|exact Q]. apply in_flat_map. exists z2. split; [exact H2|]. rewrite Ke, EN. left. reflexivity. }
  unfold replace_hopeless in E. unfold x_ignored in NI, Iz. destruct (x_kind z2) eqn:K2; try discriminate; try (subst z; rewrite K2 in Iz; discriminate).
  - destruct err as [e|]; [exfalso; eapply NF; reflexivity | subst z; rewrite K2 in Iz; discriminate].
  - destruct an as [[k2 d2]|]; [|subst z; rewrite K2 in Iz; discriminate].
    destruct (negb (disjoint_q ig d2)); [|destruct (negb (disjoint_q fw d2)); subst z; [discriminate | rewrite K2 in Iz; discriminate]].
    destruct (x_nested z2); subst z; [|discriminate]. eexists. split; [reflexivity|].
    destruct (tdef_fates _ _ ND T) as (_ & _ & O1). assert (I1 : In z2 l1) by (eapply pod_keeps; eauto).
    destruct (O1 z2 I1) as [A|(x & Hx & F)]; [exfalso; apply NM; rewrite <- EN; apply made_item_name, A|].
    exists x. split; [exact Hx|]. destruct F as [F1 F2]. split; [|symmetry; exact F1].
    destruct F2 as [F2|[F2|(F2 & _)]]; [eapply core_typedef; [exact F2|]; eexists _, _, _; exact K2 | unfold x_ignored in F2; rewrite K2 in F2; discriminate | exact F2].
Qed.

(** A typedef never stands for itself, and never has parameters. *)
Theorem c78_never_itself : forall l r y g t o k deps,
  NoDup (map xname l) -> front cfg l = OOk r ->
  In y r -> x_kind y = XTypedef (TdType g t) o (Some (k, deps)) -> g = 0 /\ ~ refers_to (td_target k) (xname y).
Proof.
  intros l r y g t o k deps ND H Hy K.
  destruct (typedef_survivor _ _ _ _ _ _ ND H Hy K) as (l1 & l2 & T & P & Y1 & Y2 & D).
  destruct (tdef_sound _ _ ND T _ Y1 _ _ _ _ _ K) as (G & cs & cs' & a & C & -> & -> & X). split; [exact G|].
  cbn [td_target]. intros R. destruct (ann_ty a) eqn:E; try (inversion R; fail). destruct (X _ _ _ eq_refl) as (q & Q & N).
  apply refers_path_name in R. congruence.
Qed.

(** An entry which is neither a function nor ignored, from the end back to the analysis of types. *)
Lemma back_to_l4 l2 y : x_ignored y = false -> (forall f pv an, x_kind y <> XFunction f pv an) ->
  In y (create_alloc_and_frees cfg (add_casts cfg (replace_hopeless_typedef_targets cfg l2))) ->
  In y (add_casts cfg (replace_hopeless_typedef_targets cfg l2)) /\ In y (replace_hopeless_typedef_targets cfg l2).
Proof.
  intros NI NF Hy.
  assert (G : forall g m, (forall x z, In x m -> In z (g x) -> exists f pv an, x_kind z = XFunction f pv an) ->
    In y (xextend cfg [] (flat_map (fun x => g x ++ [x]) m)) -> In y m).
  { intros g m Hg I. apply xextend_in in I as [[]|[I|(w & _ & ->)]]; [|discriminate].
    apply in_flat_map in I as (x & Hx & I). apply in_app_iff in I as [I|[I|[]]]; [|subst; exact Hx].
    destruct (Hg x y Hx I) as (f & pv & an & E). exfalso. eapply NF, E. }
  apply G in Hy. 2:{ intros x z _ Hz. unfold allocs_for in Hz. destruct (x_kind x); try destruct Hz as [<-|[<-|[]]]; try destruct Hz; eexists _, _, _; reflexivity. }
  split; [exact Hy|]. apply G in Hy; [exact Hy|].
  intros x z _ Hz. unfold casts_for in Hz. destruct (x_kind x); try destruct Hz. destruct an; [|destruct Hz].
    apply in_map_iff in Hz as (b & <- & _). eexists _, _, _; reflexivity.
Qed.

(** A typedef becomes an opaque type only if it depends on an item which was refused; it can be used by value
    then only if the user said so and it is not a nested type. *)
Theorem c78_opaque_only_if_hopeless : forall l r x y b,
  NoDup (map xname l) -> front cfg l = OOk r ->
  In x l -> is_typedef x -> ~ made_up (xname x) -> In y r -> xname y = xname x -> x_kind y = XOpaqueTypedef b ->
  (exists l1 l2 item o k deps z d, convert_typedef_targets cfg l = OOk l1 /\ analyze_pod_apis cfg l1 = OOk l2 /\
     In (XA (x_info x) (XTypedef item o (Some (k, deps)))) l1 /\ In d deps /\ In z l2 /\ xname z = d /\
     (x_ignored z = true \/ (b = true /\ exists e, x_kind z = XForward (Some e)))) /\
  (b = false -> In (to_cpp_name (xname x)) (ac_instantiable cfg) /\ x_nested x = false).
Proof.
  intros l r x y b ND H Hx TX NM Hy EN K.
  destruct (c79_nothing_lost_partial l r ND H) as [NDr L]. destruct (L x Hx NM) as (y' & Hy' & F).
  assert (y' = y) by (apply (same_entry r); auto; rewrite (fate_name _ _ F); auto). subst y'. destruct F as [FI _].
  destruct (front_stages l r ND H) as (l1 & l2 & T & P & -> & ND1 & ND2 & ND3 & ND4).
  destruct (back_to_l4 l2 y) as [_ H3]; [unfold x_ignored; rewrite K; reflexivity | congruence | exact Hy|].
  destruct (hopeless_list _ ND2) as (ig & fw & EI & EF & E3 & _). rewrite E3 in H3. apply in_map_iff in H3 as (y2 & E & H2).
  assert (I2 : x_info y2 = x_info x) by (rewrite <- FI, <- E; symmetry; apply replace_fate).
  destruct (tdef_fates _ _ ND T) as (_ & _ & O1). destruct (pod_fates _ _ ND1 P) as (_ & _ & O2).
  assert (NM2 : ~ made_up (xname y2)) by (unfold xname; rewrite I2; exact NM).
  assert (NO : x_kind y2 <> XOpaqueTypedef b).
  { intros KO. destruct (O2 y2 H2) as [A|(y1 & H1 & F2)]; [apply NM2, made_item_name, A|].
    assert (NM1 : ~ made_up (xname y1)) by (rewrite <- (fate_name _ _ F2); exact NM2).
    assert (X : forall u w, fate u w -> x_kind w = XOpaqueTypedef b -> x_kind u = XOpaqueTypedef b \/ is_typedef u).
    { intros u w [_ FW] KW. rewrite KW in FW. destruct FW as [FW|[FW|(FW & _)]]; [|unfold x_ignored in FW; rewrite KW in FW; discriminate|right; exact FW].
      left. destruct (x_kind u); cbn in FW; try discriminate. congruence. }
    assert (NP : forall i o a, x_kind y1 <> XTypedef i o a).
    { (* the analysis of types does not make opaque typedefs *)
      intros i o a K1. unfold analyze_pod_apis in P. destruct (new_from_apis _ _ _) as [db| | |]; try discriminate.
      destruct (x_convert _ _ _ _) as [[cs extra] [r0|e| |]] eqn:C; try discriminate. injection P as <-.
      assert (F : Forall2 (fun x y => xname y = xname x /\ (x_kind x = XTypedef i o a -> x_kind y = XTypedef i o a)) l1 r0).
      { eapply x_convert_forall2; [| |exact C].
        - intros s s1 u w E1 _. split; [apply fate_name; eapply pod_fate; eauto|]. intros KU. unfold pod_item in E1. rewrite KU in E1. injection E1 as _ <-. exact KU.
        - intros s s1 u e E1 _. split; [reflexivity|]. intros KU. unfold pod_item in E1. rewrite KU in E1. discriminate. }
      destruct (Forall2_in_l _ _ _ _ F H1) as (w & Hw & EW & KW). specialize (KW K1).
      assert (M : Forall made_item extra).
      { change (Forall made_item (snd (cs, extra))). eapply (x_convert_state (fun s => Forall made_item (snd s))); [| |exact C].
        - intros. eapply pod_state; eauto.
        - constructor. }
      assert (ND0 : NoDup (map xname r0)).
      { replace (map xname r0) with (map xname l1); [exact ND1|]. clear - F. induction F as [|u v ? ? [Hu _] F IH]; [reflexivity|]. cbn. congruence. }
      rewrite xextend_id in H2, ND2 by exact ND0.
      assert (Hw2 : In w (xextend cfg r0 extra)).
      { apply xextend_keeps; [exact Hw|]. intros I. apply NM1. rewrite <- EW. apply in_map_iff in I as (z & Ez & Iz). rewrite <- Ez.
        rewrite Forall_forall in M. apply made_item_name, M, Iz. }
      assert (w = y2) by (apply (same_entry _ w y2 ND2 Hw2 H2); rewrite EW, <- (fate_name _ _ F2); reflexivity). subst w. congruence. }
    destruct (X _ _ F2 KO) as [K1|(i & o & a & K1)]; [|eapply NP, K1].
    destruct TX as (i0 & o0 & a0 & KX).
    unfold convert_typedef_targets in T. destruct (x_convert _ _ _ _) as [[cs extra] [r0|e| |]] eqn:C; try discriminate. injection T as <-.
    assert (F : Forall2 (fun x y => xname y = xname x /\ (is_typedef x -> is_typedef y \/ x_ignored y = true)) l r0).
    { eapply x_convert_forall2; [| |exact C].
      - intros s s1 u w E1 _. split; [apply fate_name; eapply tdef_fate; eauto|]. intros (iu & ou & au & KU). left. unfold tdef_item in E1. rewrite KU in E1.
        destruct iu as [g t|t]; [|injection E1 as _ <-; eexists _, _, _; reflexivity].
        unfold get_replacement_typedef in E1. destruct (Nat.ltb 0 g); [discriminate|]. destruct (ac_fatal cfg (xname u)); [discriminate|].
        destruct (convert_type _ _ _ _ _ _) as [cs1 [a1|e1| |]]; try discriminate.
        match type of E1 with context [match ?m with Some _ => _ | None => _ end] => destruct m as [[|]|] end; try discriminate.
        injection E1 as _ <-. eexists _, _, _; reflexivity.
      - intros s s1 u e E1 _. split; [reflexivity|]. intros _. right. reflexivity. }
    destruct (Forall2_in_l _ _ _ _ F Hx) as (w & Hw & EW & KW).
    assert (M : Forall made_item extra).
    { change (Forall made_item (snd (cs, extra))). eapply (x_convert_state (fun s => Forall made_item (snd s))); [| |exact C].
      - intros. eapply tdef_state; eauto.
      - constructor. }
    assert (ND0 : NoDup (map xname r0)).
    { replace (map xname r0) with (map xname l); [exact ND|]. clear - F. induction F as [|u v ? ? [Hu _] F IH]; [reflexivity|]. cbn. congruence. }
    rewrite xextend_id in H1, ND1 by exact ND0.
    assert (Hw2 : In w (xextend cfg r0 extra)).
    { apply xextend_keeps; [exact Hw|]. intros I. apply NM. rewrite <- EW. apply in_map_iff in I as (z & Ez & Iz). rewrite <- Ez.
      rewrite Forall_forall in M. apply made_item_name, M, Iz. }
    assert (E12 : xname y1 = xname x) by (rewrite <- (fate_name _ _ F2); unfold xname; rewrite I2; reflexivity).
    assert (w = y1) by (apply (same_entry _ w y1 ND1 Hw2 H1); congruence). subst w.
    destruct (KW (ex_intro _ i0 (ex_intro _ o0 (ex_intro _ a0 KX)))) as [(i & o & a & KK)|KK]; [congruence | unfold x_ignored in KK; rewrite K1 in KK; discriminate]. }
  unfold replace_hopeless in E. destruct (x_kind y2) eqn:K2; try (subst y; congruence).
  - destruct err as [[e c]|]; subst y; [discriminate | congruence].
  - destruct an as [[k deps]|]; [|subst y; congruence].
    assert (Y1 : In (XA (x_info x) (XTypedef item old_tyname (Some (k, deps)))) l1).
    { rewrite <- I2. replace (XA _ _) with y2 by (destruct y2; cbn in *; congruence). eapply pod_keeps; eauto. }
    assert (NE : x_nested y2 = x_nested x) by (unfold x_nested, xname; rewrite I2; reflexivity).
    assert (CN : xname y2 = xname x) by (unfold xname; rewrite I2; reflexivity).
    assert (W : forall m, disjoint_q m deps = false -> exists d, In d m /\ In d deps).
    { intros m D. unfold disjoint_q in D. apply negb_false_iff, existsb_exists in D as (d & A1 & A2). apply qmem_In in A2. eauto. }
    destruct (disjoint_q ig deps) eqn:D1; cbn [negb] in E.
    + destruct (disjoint_q fw deps) eqn:D2; cbn [negb] in E; subst y; [congruence|]. injection K as <-.
      split; [|discriminate]. destruct (W _ D2) as (d & A1 & A2). rewrite EF in A1. apply in_flat_map in A1 as (z & Hz & A1).
      exists l1, l2, item, old_tyname, k, deps, z, d. repeat (split; [assumption|]).
      destruct (x_kind z) eqn:KZ; try (destruct A1; fail). destruct err as [e|]; [|destruct A1]. destruct A1 as [A1|[]].
      split; [exact A1|]. right. split; [reflexivity|]. exists e. reflexivity.
    + destruct (x_nested y2) eqn:NN; subst y; [discriminate|]. injection K as <-. split.
      * destruct (W _ D1) as (d & A1 & A2). rewrite EI in A1. apply in_map_iff in A1 as (z & Ez & A1). apply filter_In in A1 as [Hz A1].
        exists l1, l2, item, old_tyname, k, deps, z, d. repeat (split; [assumption|]). left. exact A1.
      * intros B. apply negb_false_iff, existsb_exists in B as (s & B1 & B2). apply String.eqb_eq in B2. subst s. rewrite CN in B1. split; [exact B1 | congruence].
Qed.

(** A forward declaration which was in error is an ignored item with that error at the end. *)
Theorem c78_forward_errors_kept : forall l r x e c,
  NoDup (map xname l) -> front cfg l = OOk r -> In x l -> ~ made_up (xname x) -> x_kind x = XForward (Some (e, c)) ->
  In (XA (x_info x) (XIgnored e c)) r.
Proof.
  intros l r x e c ND H Hx NM K. destruct (front_stages l r ND H) as (l1 & l2 & T & P & -> & ND1 & ND2 & ND3 & ND4).
  assert (H1 : In x l1).
  { destruct (tdef_fates _ _ ND T) as (_ & L1 & _). unfold convert_typedef_targets in T.
    destruct (x_convert _ _ _ _) as [[cs extra] [r0|e1| |]] eqn:C; try discriminate. injection T as <-.
    assert (F : Forall2 (fun x y => xname y = xname x /\ (x_kind x = XForward (Some (e, c)) -> y = x)) l r0).
    { eapply x_convert_forall2; [| |exact C].
      - intros s s1 u w E1 _. split; [apply fate_name; eapply tdef_fate; eauto|]. intros KU. unfold tdef_item in E1. rewrite KU in E1. congruence.
      - intros s s1 u e1 E1 _. split; [reflexivity|]. intros KU. unfold tdef_item in E1. rewrite KU in E1. discriminate. }
    destruct (Forall2_in_l _ _ _ _ F Hx) as (w & Hw & EW & KW). rewrite (KW K) in Hw.
    assert (ND0 : NoDup (map xname r0)).
    { replace (map xname r0) with (map xname l); [exact ND|]. clear - F. induction F as [|u v ? ? [Hu _] F IH]; [reflexivity|]. cbn. congruence. }
    rewrite xextend_id by exact ND0. apply xextend_keeps; [exact Hw|]. intros I. apply NM. apply in_map_iff in I as (z & Ez & Iz). rewrite <- Ez.
    assert (M : Forall made_item extra).
    { change (Forall made_item (snd (cs, extra))). eapply (x_convert_state (fun s => Forall made_item (snd s))); [| |exact C].
      - intros. eapply tdef_state; eauto.
      - constructor. }
    rewrite Forall_forall in M. apply made_item_name, M, Iz. }
  assert (H2 : In x l2).
  { unfold analyze_pod_apis in P. destruct (new_from_apis _ _ _) as [db| | |]; try discriminate.
    destruct (x_convert _ _ _ _) as [[cs extra] [r0|e1| |]] eqn:C; try discriminate. injection P as <-.
    assert (F : Forall2 (fun x y => xname y = xname x /\ (x_kind x = XForward (Some (e, c)) -> y = x)) l1 r0).
    { eapply x_convert_forall2; [| |exact C].
      - intros s s1 u w E1 _. split; [apply fate_name; eapply pod_fate; eauto|]. intros KU. unfold pod_item in E1. rewrite KU in E1. congruence.
      - intros s s1 u e1 E1 _. split; [reflexivity|]. intros KU. unfold pod_item in E1. rewrite KU in E1. discriminate. }
    destruct (Forall2_in_l _ _ _ _ F H1) as (w & Hw & EW & KW). rewrite (KW K) in Hw.
    assert (ND0 : NoDup (map xname r0)).
    { replace (map xname r0) with (map xname l1); [exact ND1|]. clear - F. induction F as [|u v ? ? [Hu _] F IH]; [reflexivity|]. cbn. congruence. }
    rewrite xextend_id by exact ND0. apply xextend_keeps; [exact Hw|]. intros I. apply NM. apply in_map_iff in I as (z & Ez & Iz). rewrite <- Ez.
    assert (M : Forall made_item extra).
    { change (Forall made_item (snd (cs, extra))). eapply (x_convert_state (fun s => Forall made_item (snd s))); [| |exact C].
      - intros. eapply pod_state; eauto.
      - constructor. }
    rewrite Forall_forall in M. apply made_item_name, M, Iz. }
  destruct (hopeless_list _ ND2) as (ig & fw & EI & EF & E3 & _).
  assert (H3 : In (XA (x_info x) (XIgnored e c)) (replace_hopeless_typedef_targets cfg l2)).
  { rewrite E3. apply in_map_iff. exists x. split; [|exact H2]. unfold replace_hopeless. rewrite K. reflexivity. }
  destruct (add_front casts_for _ ND3 (fun x y _ => cast_made x y)) as (_ & F4 & _).
  destruct (add_front allocs_for _ ND4 (fun x y _ => alloc_made x y)) as (_ & F5 & _).
  apply F5; [apply F4; [exact H3 | exact NM] | exact NM].
Qed.

(** ** Adding an item of a name in use *)

Lemma xpush_claims z v w : (forall y, In y v -> xname y = xname z -> y = z \/ x_ignored y = true) -> In (xname z) (map xname v) ->
  forall y, In y (xpush cfg v w) -> xname y = xname z -> y = z \/ x_ignored y = true.
Proof.
  intros HV HN y Hy E. unfold xpush in Hy. destruct (qmem (xname w) (map xname v)) eqn:M.
  - destruct (x_ignored w); [apply HV; assumption|]. apply in_app_iff in Hy as [Hy|[<-|[]]]; [|right; reflexivity].
    apply filter_In in Hy as [Hy _]. apply HV; assumption.
  - apply in_app_iff in Hy as [Hy|[<-|[]]]; [apply HV; assumption|]. exfalso. apply qmem_nIn in M. apply M. rewrite E. exact HN.
Qed.
Lemma xextend_claims l : forall v z, (forall y, In y v -> xname y = xname z -> y = z \/ x_ignored y = true) -> In (xname z) (map xname v) ->
  forall y, In y (xextend cfg v l) -> xname y = xname z -> y = z \/ x_ignored y = true.
Proof.
  induction l as [|w l IH]; intros v z HV HN y Hy E; [apply HV; assumption|]. cbn in Hy. eapply IH; [| |exact Hy|exact E].
  - intros u. apply xpush_claims; assumption.
  - apply xpush_names. left. exact HN.
Qed.
(** What was added under a name is what is there under it, or something ignored is. *)
Lemma added_or_ignored l v z : In z l -> x_ignored z = false ->
  exists y, In y (xextend cfg v l) /\ xname y = xname z /\ (y = z \/ x_ignored y = true).
Proof.
  intros Hz NI. assert (HN : In (xname z) (map xname (xextend cfg v l))) by (apply xextend_names; right; apply in_map, Hz).
  apply in_map_iff in HN as (y & E & Hy). exists y. split; [exact Hy|]. split; [exact E|].
  apply in_split in Hz as (l1 & l2 & ->). rewrite xextend_app in Hy. cbn in Hy. change (In y (xextend cfg (xpush cfg (xextend cfg v l1) z) l2)) in Hy.
  eapply xextend_claims; [| |exact Hy|exact E].
  - intros u Hu Eu. unfold xpush in Hu. rewrite NI in Hu. destruct (qmem (xname z) (map xname (xextend cfg v l1))) eqn:M.
    + apply in_app_iff in Hu as [Hu|[<-|[]]]; [|right; reflexivity]. apply filter_In in Hu as [_ Hu]. rewrite Eu, qn_eqb_refl in Hu. discriminate.
    + apply in_app_iff in Hu as [Hu|[<-|[]]]; [|left; reflexivity]. exfalso. apply qmem_nIn in M. apply M. rewrite <- Eu. apply in_map, Hu.
  - apply xpush_names. right. reflexivity.
Qed.

(** * C81: storage *)

(** The types of which objects are allocated from Rust. *)
Definition stores (x : xapi) (q : qname) : Prop :=
  (exists d a, x_kind x = XStruct d a) /\ q = xname x \/ (exists s, x_kind x = XSubclass s) /\ q = QN (qn_ns (xname x)) (qn_item (xname x) +++ "Cpp").
Lemma stores_allocs x q : stores x q -> In (alloc_fn q) (allocs_for x) /\ In (free_fn q) (allocs_for x).
Proof. intros [((d & a & K) & ->)|((s & K) & ->)]; unfold allocs_for; rewrite K; cbn; auto. Qed.
Lemma allocs_stores x y : In y (allocs_for x) -> exists q, stores x q /\ (y = alloc_fn q \/ y = free_fn q).
Proof.
  unfold allocs_for. destruct (x_kind x) eqn:K; try (intros []; fail).
  - intros H. exists (xname x). split; [left; split; [eauto | reflexivity]|]. destruct H as [H|[H|[]]]; auto.
  - intros H. exists (subclass_cpp (xname x)). split; [right; split; [eauto | reflexivity]|]. destruct H as [H|[H|[]]]; auto.
Qed.
(** A name wanted for an allocation function is wanted for something else, too: an item which was parsed has
    it, it is that of a template instantiation or of a cast, or another item stores the same type. *)
Definition storage_clash (l : list xapi) (x : xapi) (q n : qname) : Prop :=
  In n (map xname l) \/ concrete_name n \/ cast_name n \/ exists x', In x' l /\ xname x' <> xname x /\ stores x' q.
Lemma names_l4 l l1 l2 n : NoDup (map xname l) -> NoDup (map xname l1) -> NoDup (map xname l2) -> convert_typedef_targets cfg l = OOk l1 -> analyze_pod_apis cfg l1 = OOk l2 ->
  In n (map xname (add_casts cfg (replace_hopeless_typedef_targets cfg l2))) -> In n (map xname l) \/ concrete_name n \/ cast_name n.
Proof.
  intros ND ND1 ND2 T P H. unfold add_casts in H. apply xextend_names in H as [[]|H].
  apply in_map_iff in H as (y & <- & H). apply in_flat_map in H as (x & Hx & H). apply in_app_iff in H as [H|[H|[]]].
  - right. right. unfold casts_for in H. destruct (x_kind x); try destruct H. destruct an as [pa|]; [|destruct H].
    apply in_map_iff in H as (b & <- & _). exists (qn_item (xname x)), (qn_item b). cbn. rewrite app_empty_r. reflexivity.
  - subst y. destruct (hopeless_list _ ND2) as (ig & fw & _ & _ & _ & N3). apply (in_map xname) in Hx. rewrite N3 in Hx.
    apply in_map_iff in Hx as (y2 & E2 & H2). destruct (pod_fates _ _ ND1 P) as (_ & _ & O2). destruct (tdef_fates _ _ ND T) as (_ & _ & O1).
    destruct (O2 y2 H2) as [A|(y1 & H1 & F2)]; [right; left; rewrite <- E2; apply made_item_concrete, A|].
    destruct (O1 y1 H1) as [A|(x0 & Hx0 & F1)]; [right; left; rewrite <- E2, (fate_name _ _ F2); apply made_item_concrete, A|].
    left. rewrite <- E2, (fate_name _ _ F2), (fate_name _ _ F1). apply in_map, Hx0.
Qed.

(** Every struct and every subclass has one entry for its allocation function and one for its deallocation
    function. Each is that function, or it is ignored because something else is called so, too. *)
Theorem c81_alloc_and_free_partial : forall l r x q f,
  NoDup (map xname l) -> front cfg l = OOk r -> In x r -> stores x q -> f = alloc_fn q \/ f = free_fn q ->
  exists y, In y r /\ xname y = xname f /\ (forall z, In z r -> xname z = xname f -> z = y) /\
    (y = f \/ x_ignored y = true /\ storage_clash l x q (xname f)).
Proof.
  intros l r x q f ND H Hx ST Hf. destruct (c79_nothing_lost_partial l r ND H) as [NDr _].
  destruct (front_stages l r ND H) as (l1 & l2 & T & P & -> & ND1 & ND2 & ND3 & ND4).
  assert (NIx : x_ignored x = false /\ forall g pv an, x_kind x <> XFunction g pv an).
  { unfold x_ignored. destruct ST as [((d & a & K) & _)|((s & K) & _)]; rewrite K; split; try reflexivity; intros; discriminate. }
  destruct (back_to_l4 l2 x (proj1 NIx) (proj2 NIx) Hx) as [H4 _].
  set (l4 := add_casts cfg (replace_hopeless_typedef_targets cfg l2)) in *.
  assert (IF : In f (allocs_for x)) by (destruct (stores_allocs x q ST), Hf; subst f; assumption).
  assert (NIf : x_ignored f = false) by (destruct Hf; subst f; reflexivity).
  assert (IL : In f (flat_map (fun x => allocs_for x ++ [x]) l4)) by (apply in_flat_map; exists x; split; [exact H4 | apply in_app_iff; left; exact IF]).
  destruct (added_or_ignored _ [] f IL NIf) as (y & Hy & EN & R). exists y. split; [exact Hy|]. split; [exact EN|]. split.
  { intros z Hz Ez. apply (same_entry _ z y NDr Hz Hy). congruence. }
  destruct R as [R|R]; [left; exact R|].
  destruct (qmem (xname f) (map xname l4)) eqn:M4.
  { right. split; [exact R|]. apply qmem_In in M4. destruct (names_l4 l l1 l2 (xname f)) as [A|[A|A]]; auto; unfold storage_clash; tauto. }
  apply qmem_nIn in M4.
  destruct (existsb (fun x' => negb (qn_eqb (xname x') (xname x)) && existsb (fun g => qn_eqb (xname g) (xname f)) (allocs_for x')) l4) eqn:EX.
  - right. split; [exact R|]. right. right. right. apply existsb_exists in EX as (x' & H' & B). apply andb_true_iff in B as [B1 B2]. apply negb_true_iff in B1.
    apply existsb_exists in B2 as (g & Hg & B2). apply qn_eqb_eq in B2. destruct (allocs_stores _ _ Hg) as (q' & ST' & Eg).
    assert (q' = q).
    { destruct (c13_alloc_free_determine_type q' q) as (D1 & D2 & D3). destruct (c13_alloc_free_determine_type q q') as (_ & _ & D4).
      destruct Eg as [->| ->], Hf as [->| ->]; cbn in B2; [apply D1, B2 | exfalso; apply D3, B2 | exfalso; apply D4; symmetry; exact B2 | apply D2, B2]. }
    subst q'. assert (K' : (exists d a, x_kind x' = XStruct d a) \/ (exists s, x_kind x' = XSubclass s)) by (destruct ST' as [[A _]|[A _]]; auto).
    assert (H3 : In x' (replace_hopeless_typedef_targets cfg l2)).
    { unfold l4, add_casts in H'. apply xextend_in in H' as [[]|[A|(w & _ & ->)]]; [|destruct K' as [(d & a & K)|(s & K)]; discriminate].
      apply in_flat_map in A as (u & Hu & A). apply in_app_iff in A as [A|[A|[]]]; [|subst; exact Hu].
      unfold casts_for in A. destruct (x_kind u); try destruct A. destruct an; [|destruct A]. apply in_map_iff in A as (b & <- & _).
      destruct K' as [(d0 & a0 & K)|(s & K)]; discriminate. }
    destruct (hopeless_list _ ND2) as (ig & fw & _ & _ & E3 & _). rewrite E3 in H3. apply in_map_iff in H3 as (y2 & E & H2).
    pose proof (replace_fate ig fw y2) as F3. rewrite E in F3.
    destruct (tdef_fates _ _ ND T) as (_ & _ & O1). destruct (pod_fates _ _ ND1 P) as (_ & _ & O2).
    assert (X : forall u w, fate u w -> (exists d a, x_kind w = XStruct d a) \/ (exists s, x_kind w = XSubclass s) -> core (x_kind w) = core (x_kind u)).
    { intros u w [_ [C|[C|(_ & b & C)]]] KW; [exact C| |].
      - unfold x_ignored in C. destruct KW as [(d & a & K)|(s & K)]; rewrite K in C; discriminate.
      - destruct KW as [(d & a & K)|(s & K)]; congruence. }
    assert (Y : forall u w, core (x_kind w) = core (x_kind u) -> (exists d a, x_kind w = XStruct d a) \/ (exists s, x_kind w = XSubclass s) ->
      (exists d a, x_kind u = XStruct d a) \/ (exists s, x_kind u = XSubclass s)).
    { intros u w C [(d & a & K)|(s & K)]; rewrite K in C; cbn in C; destruct (x_kind u) eqn:KU; try discriminate; eauto. }
    assert (Z : forall w, made_item w -> (exists d a, x_kind w = XStruct d a) \/ (exists s, x_kind w = XSubclass s) -> False).
    { intros w [(p & r & def & rs & ->)|(p & r & ->)] [(d & a & K)|(s & K)]; discriminate. }
    pose proof (X _ _ F3 K') as C3. pose proof (Y _ _ C3 K') as K2.
    destruct (O2 y2 H2) as [A|(y1 & H1 & F2)]; [exfalso; eapply Z; eauto|]. pose proof (X _ _ F2 K2) as C2. pose proof (Y _ _ C2 K2) as K1.
    destruct (O1 y1 H1) as [A|(x0 & H0 & F1)]; [exfalso; eapply Z; eauto|]. pose proof (X _ _ F1 K1) as C1.
    assert (N0 : xname x' = xname x0) by (rewrite (fate_name _ _ F3), (fate_name _ _ F2), (fate_name _ _ F1); reflexivity).
    exists x0. split; [exact H0|]. split.
    + rewrite <- N0. intros Q. rewrite Q, qn_eqb_refl in B1. discriminate.
    + unfold stores in *. rewrite <- N0. assert (CC : core (x_kind x') = core (x_kind x0)) by congruence.
      destruct ST' as [((d & a & K) & Q)|((s & K) & Q)]; rewrite K in CC; cbn in CC; destruct (x_kind x0); try discriminate; [left | right]; eauto.
  - left. assert (IR : In f (create_alloc_and_frees cfg l4)); [|apply (same_entry _ y f NDr Hy IR EN)].
    apply in_split in H4 as (la & lb & E4). unfold create_alloc_and_frees. rewrite E4, flat_map_app. cbn [flat_map].
    assert (NO : forall m, incl m l4 -> ~ In (xname x) (map xname m) -> ~ In (xname f) (map xname (flat_map (fun x => allocs_for x ++ [x]) m))).
    { intros m Im NX I. apply in_map_iff in I as (z & Ez & I). apply in_flat_map in I as (x' & Hx' & I). apply in_app_iff in I as [I|[I|[]]].
      - assert (B : existsb (fun x' => negb (qn_eqb (xname x') (xname x)) && existsb (fun g => qn_eqb (xname g) (xname f)) (allocs_for x')) l4 = true); [|congruence].
        apply existsb_exists. exists x'. split; [apply Im, Hx'|]. apply andb_true_iff. split.
        + apply negb_true_iff. destruct (qn_eqb (xname x') (xname x)) eqn:Q; [|reflexivity]. apply qn_eqb_eq in Q. exfalso. apply NX. rewrite <- Q. apply in_map, Hx'.
        + apply existsb_exists. exists z. split; [exact I | rewrite Ez; apply qn_eqb_refl].
      - subst x'. apply M4. rewrite <- Ez. apply in_map, Im, Hx'. }
    assert (NX : ~ In (xname x) (map xname la) /\ ~ In (xname x) (map xname lb)).
    { rewrite E4, map_app in ND4. cbn in ND4. apply NoDup_remove_2 in ND4. rewrite in_app_iff in ND4. tauto. }
    assert (NA : ~ In (xname f) (map xname (flat_map (fun x => allocs_for x ++ [x]) la))) by (apply NO; [intros w Hw; rewrite E4; apply in_app_iff; left; exact Hw | tauto]).
    assert (NB : ~ In (xname f) (map xname (flat_map (fun x => allocs_for x ++ [x]) lb))) by (apply NO; [intros w Hw; rewrite E4; apply in_app_iff; right; right; exact Hw | tauto]).
    assert (NXF : xname f <> xname x) by (intros Q; apply M4; rewrite Q; apply in_map; rewrite E4; apply in_app_iff; right; left; reflexivity).
    assert (EA : allocs_for x = [alloc_fn q; free_fn q]).
    { destruct ST as [((d & a & K) & ->)|((s & K) & ->)]; unfold allocs_for; rewrite K; reflexivity. }
    rewrite EA. destruct (c13_alloc_free_determine_type q q) as (_ & _ & D). destruct Hf as [-> | ->].
    + apply xextend_once; [intros [] | exact NA|]. cbn. intros [Q|[Q|Q]]; [apply D; symmetry; exact Q | apply NXF; symmetry; exact Q | exact (NB Q)].
    + change (In (free_fn q) (xextend cfg [] (flat_map (fun x => allocs_for x ++ [x]) la ++ [alloc_fn q] ++ free_fn q :: [x] ++ flat_map (fun x => allocs_for x ++ [x]) lb))).
      rewrite app_assoc. apply xextend_once; [intros []| |].
      * rewrite map_app, in_app_iff. intros [Q|[Q|[]]]; [exact (NA Q) | apply D; exact Q].
      * cbn. intros [Q|Q]; [apply NXF; symmetry; exact Q | exact (NB Q)].
Qed.

(** Structs and subclasses, from before the casts are added back to what was parsed. *)
Lemma struct_back l l1 l2 x : NoDup (map xname l) -> NoDup (map xname l1) -> NoDup (map xname l2) ->
  convert_typedef_targets cfg l = OOk l1 -> analyze_pod_apis cfg l1 = OOk l2 -> In x (replace_hopeless_typedef_targets cfg l2) ->
  (exists d a, x_kind x = XStruct d a) \/ (exists s, x_kind x = XSubclass s) ->
  exists x0, In x0 l /\ x_info x = x_info x0 /\ core (x_kind x) = core (x_kind x0).
Proof.
  intros ND ND1 ND2 T P H3 K'. destruct (hopeless_list _ ND2) as (ig & fw & _ & _ & E3 & _). rewrite E3 in H3. apply in_map_iff in H3 as (y2 & E & H2).
  pose proof (replace_fate ig fw y2) as F3. rewrite E in F3.
  destruct (tdef_fates _ _ ND T) as (_ & _ & O1). destruct (pod_fates _ _ ND1 P) as (_ & _ & O2).
  assert (X : forall u w, fate u w -> (exists d a, x_kind w = XStruct d a) \/ (exists s, x_kind w = XSubclass s) -> core (x_kind w) = core (x_kind u)).
  { intros u w [_ [C|[C|(_ & b & C)]]] KW; [exact C| |].
    - unfold x_ignored in C. destruct KW as [(d & a & K)|(s & K)]; rewrite K in C; discriminate.
    - destruct KW as [(d & a & K)|(s & K)]; congruence. }
  assert (Y : forall u w, core (x_kind w) = core (x_kind u) -> (exists d a, x_kind w = XStruct d a) \/ (exists s, x_kind w = XSubclass s) ->
    (exists d a, x_kind u = XStruct d a) \/ (exists s, x_kind u = XSubclass s)).
  { intros u w C [(d & a & K)|(s & K)]; rewrite K in C; cbn in C; destruct (x_kind u) eqn:KU; try discriminate; eauto. }
  assert (Z : forall w, made_item w -> (exists d a, x_kind w = XStruct d a) \/ (exists s, x_kind w = XSubclass s) -> False).
  { intros w [(p & r & def & rs & ->)|(p & r & ->)] [(d & a & K)|(s & K)]; discriminate. }
  pose proof (X _ _ F3 K') as C3. pose proof (Y _ _ C3 K') as K2.
  destruct (O2 y2 H2) as [A|(y1 & H1 & F2)]; [exfalso; eapply Z; eauto|]. pose proof (X _ _ F2 K2) as C2. pose proof (Y _ _ C2 K2) as K1.
  destruct (O1 y1 H1) as [A|(x0 & H0 & F1)]; [exfalso; eapply Z; eauto|]. pose proof (X _ _ F1 K1) as C1.
  exists x0. split; [exact H0|]. split; [|congruence]. destruct F1 as [E1 _], F2 as [E2 _], F3 as [E4 _]. congruence.
Qed.
Lemma l4_struct l2 x : In x (add_casts cfg (replace_hopeless_typedef_targets cfg l2)) ->
  (exists d a, x_kind x = XStruct d a) \/ (exists s, x_kind x = XSubclass s) -> In x (replace_hopeless_typedef_targets cfg l2).
Proof.
  intros H' K'. unfold add_casts in H'. apply xextend_in in H' as [[]|[A|(w & _ & ->)]]; [|destruct K' as [(d & a & K)|(s & K)]; discriminate].
  apply in_flat_map in A as (u & Hu & A). apply in_app_iff in A as [A|[A|[]]]; [|subst; exact Hu].
  unfold casts_for in A. destruct (x_kind u); try destruct A. destruct an; [|destruct A]. apply in_map_iff in A as (b & <- & _).
  destruct K' as [(d0 & a0 & K)|(s & K)]; discriminate.
Qed.
(** A function after all phases: parsed, cast, or (de)allocation. *)
Lemma function_origin l r y f pv a : NoDup (map xname l) -> front cfg l = OOk r -> In y r -> x_kind y = XFunction f pv a -> exists l1 l2,
  convert_typedef_targets cfg l = OOk l1 /\ analyze_pod_apis cfg l1 = OOk l2 /\ NoDup (map xname l1) /\ NoDup (map xname l2) /\
  ((exists x q, In x (replace_hopeless_typedef_targets cfg l2) /\ stores x q /\ (y = alloc_fn q \/ y = free_fn q)) \/
   (exists x d pa b, In x (replace_hopeless_typedef_targets cfg l2) /\ x_kind x = XStruct d (Some pa) /\ In b (pa_castable pa) /\ y = create_cast (xname x) b) \/
   exists x, In x l /\ fate x y).
Proof.
  intros ND H Hy K. destruct (front_stages l r ND H) as (l1 & l2 & T & P & -> & ND1 & ND2 & ND3 & ND4).
  exists l1, l2. repeat (split; [assumption|]). unfold create_alloc_and_frees in Hy.
  apply xextend_in in Hy as [[]|[Hy|(w & _ & ->)]]; [|discriminate]. apply in_flat_map in Hy as (x & Hx & Hy). apply in_app_iff in Hy as [Hy|[->|[]]].
  - left. destruct (allocs_stores _ _ Hy) as (q & ST & E). exists x, q. split; [|auto]. apply l4_struct; [exact Hx|].
    destruct ST as [[A _]|[A _]]; auto.
  - right. unfold add_casts in Hx. apply xextend_in in Hx as [[]|[Hx|(w & _ & ->)]]; [|discriminate]. apply in_flat_map in Hx as (x & Hx & Hy). apply in_app_iff in Hy as [Hy|[->|[]]].
    + left. unfold casts_for in Hy. destruct (x_kind x) eqn:KX; try destruct Hy. destruct an as [pa|]; [|destruct Hy].
      apply in_map_iff in Hy as (b & <- & Hb). exists x, d, pa, b. auto.
    + right. destruct (hopeless_list _ ND2) as (ig & fw & _ & _ & E3 & _). rewrite E3 in Hx. apply in_map_iff in Hx as (y2 & E & H2).
      pose proof (replace_fate ig fw y2) as F3. rewrite E in F3.
      destruct (tdef_fates _ _ ND T) as (_ & _ & O1). destruct (pod_fates _ _ ND1 P) as (_ & _ & O2).
      assert (X : forall u w f pv a, fate u w -> x_kind w = XFunction f pv a -> exists a', x_kind u = XFunction f pv a').
      { intros u w f0 pv0 a0 [_ [C|[C|(_ & b & C)]]] KW; [|unfold x_ignored in C; rewrite KW in C; discriminate|congruence].
        rewrite KW in C. cbn in C. destruct (x_kind u); try discriminate. injection C as <- <-. eauto. }
      destruct (X _ _ _ _ _ F3 K) as (a2 & K2).
      assert (Z : forall w f pv a, made_item w -> x_kind w = XFunction f pv a -> False).
      { intros w f0 pv0 a0 [(p & r & def & rs & ->)|(p & r & ->)] KW; discriminate. }
      destruct (O2 y2 H2) as [A|(y1 & H1 & F2)]; [exfalso; eapply Z; eauto|]. destruct (X _ _ _ _ _ F2 K2) as (a1 & K1).
      destruct (O1 y1 H1) as [A|(x0 & H0 & F1)]; [exfalso; eapply Z; eauto|].
      exists x0. split; [exact H0|]. eapply fate_trans; [exact F1 | eapply fate_trans; [exact F2 | exact F3]].
Qed.

(** Every (de)allocation function which was not parsed is that of a struct or subclass which was. *)
Theorem c81_only_for_stored_types : forall l r y f pv a q,
  NoDup (map xname l) -> front cfg l = OOk r -> In y r -> ~ (exists x, In x l /\ fate x y) ->
  x_kind y = XFunction f pv a -> f_synthetic f = Some (CbAlloc q, CkFunction) \/ f_synthetic f = Some (CbFree q, CkFunction) ->
  (y = alloc_fn q \/ y = free_fn q) /\ exists x, In x l /\ stores x q.
Proof.
  intros l r y f pv a q ND H Hy NP K SY. destruct (function_origin _ _ _ _ _ _ ND H Hy K) as (l1 & l2 & T & P & ND1 & ND2 & [(x & q0 & Hx & ST & E)|[(x & d & pa & b & Hx & KX & Hb & E)|E]]).
  - assert (q0 = q) by (destruct E as [-> | ->]; injection K as <- _ _; cbn in SY; destruct SY; congruence). subst q0. split; [exact E|].
    destruct (struct_back _ _ _ _ ND ND1 ND2 T P Hx) as (x0 & H0 & EI & EC); [destruct ST as [[A _]|[A _]]; auto|].
    exists x0. split; [exact H0|]. unfold stores, xname in *. rewrite <- EI.
    destruct ST as [((d & b & KK) & Q)|((s & KK) & Q)]; rewrite KK in EC; cbn in EC; destruct (x_kind x0); try discriminate; [left | right]; eauto.
  - exfalso. subst y. injection K as <- _ _. cbn in SY. destruct SY; discriminate.
  - contradiction.
Qed.

(** * C80: casts *)

(** [b] is a base which C++ code outside may convert to: bindgen writes a base as a field called [_base...]. *)
Definition declares_base (d : struct_details) (b : qname) (public : bool) : Prop :=
  exists f ld id args, In f (sd_fields d) /\ name_starts "_base" (bf_name f) = true /\ bf_ty f = TPath ld id args /\
    refers_to (TPath ld id args) b /\ bf_public f = public.
Lemma get_bases_sound fs : forall m, get_bases fs = OOk m ->
  (forall b p, In (b, p) m -> exists f ld id args, In f fs /\ name_starts "_base" (bf_name f) = true /\ bf_ty f = TPath ld id args /\
     refers_to (TPath ld id args) b /\ bf_public f = p) /\
  (forall f ld id args b, In f fs -> name_starts "_base" (bf_name f) = true -> bf_ty f = TPath ld id args ->
     refers_to (TPath ld id args) b -> exists p, In (b, p) m).
Proof.
  induction fs as [|f fs IH]; intros m H.
  - injection H as <-. split; [intros b p [] | intros f ld id args b []].
  - assert (SK : get_bases fs = OOk m -> (forall ld id args, bf_ty f = TPath ld id args -> name_starts "_base" (bf_name f) = false) ->
      (forall b p, In (b, p) m -> exists f0 ld id args, In f0 (f :: fs) /\ name_starts "_base" (bf_name f0) = true /\ bf_ty f0 = TPath ld id args /\
         refers_to (TPath ld id args) b /\ bf_public f0 = p) /\
      (forall f0 ld id args b, In f0 (f :: fs) -> name_starts "_base" (bf_name f0) = true -> bf_ty f0 = TPath ld id args ->
         refers_to (TPath ld id args) b -> exists p, In (b, p) m)).
    { intros G NB. destruct (IH m G) as [I1 I2]. split.
      - intros b p I. destruct (I1 b p I) as (f0 & ld & id & args & A & B). exists f0, ld, id, args. split; [right; exact A | exact B].
      - intros f0 ld id args b [->|I] B1 B2 B3; [rewrite (NB _ _ _ B2) in B1; discriminate | eapply I2; eauto]. }
    cbn in H. destruct (bf_ty f) as [ld id args| | | | |] eqn:TY; try (apply SK; [exact H | intros; discriminate]).
    destruct (name_starts "_base" (bf_name f)) eqn:NB; [|apply SK; [exact H | intros; reflexivity]].
    destruct (path_name ld id) as [q|] eqn:PN; [|discriminate]. destruct (get_bases fs) as [m0| | |] eqn:G; try discriminate. injection H as <-.
    destruct (IH m0 eq_refl) as [I1 I2]. clear SK.
    assert (R : refers_to (TPath ld id args) q) by (apply path_name_spec; exact PN). split.
    + intros b p I. destruct (qget q m0).
      * destruct (I1 b p I) as (f0 & A1 & A2 & A3 & A & B). exists f0, A1, A2, A3. split; [right; exact A | exact B].
      * destruct I as [I|I].
        -- injection I as <- <-. exists f, ld, id, args. split; [left; reflexivity|]. auto.
        -- destruct (I1 b p I) as (f0 & A1 & A2 & A3 & A & B). exists f0, A1, A2, A3. split; [right; exact A | exact B].
    + intros f0 ld0 id0 args0 b [<-|I] B1 B2 B3.
      * assert (b = q) by (rewrite TY in B2; injection B2 as -> -> ->; apply path_name_spec in B3; congruence). subst b.
        destruct (qget q m0) as [p|] eqn:QG; [exists p; apply qget_In; exact QG | exists (bf_public f); left; reflexivity].
      * destruct (I2 f0 ld0 id0 args0 b I B1 B2 B3) as (p & J). exists p. destruct (qget q m0); [exact J | right; exact J].
Qed.
Definition bases_sound (y : xapi) : Prop := forall d a, x_kind y = XStruct d a -> exists pa, a = Some pa /\
  (forall b, In b (pa_castable pa) -> declares_base d b true /\ ac_allow cfg (to_cpp_name b) = true) /\
  (forall b, declares_base d b true -> ~ declares_base d b false -> ac_allow cfg (to_cpp_name b) = true -> In b (pa_castable pa)).
Lemma pod_bases l1 l2 : analyze_pod_apis cfg l1 = OOk l2 -> forall y, In y l2 -> bases_sound y.
Proof.
  intros P y Hy. unfold analyze_pod_apis in P. destruct (new_from_apis _ _ _) as [db| | |]; try discriminate.
  destruct (x_convert _ _ _ _) as [[cs extra] [r0|e| |]] eqn:C; try discriminate. injection P as <-.
  assert (F : Forall2 (fun _ y => bases_sound y) l1 r0).
  { eapply x_convert_forall2; [| |exact C]; [|intros s s1 x e _ _ d a K; discriminate].
    intros s s1 x z E _ d a K. unfold pod_item in E.
    destruct (x_kind x) eqn:KX; try (injection E as _ <-; congruence).
    - destruct (ac_fatal cfg (xname x)); [discriminate|]. injection E as _ <-. congruence.
    - destruct (analyze_struct _ _ _ _ _ _ _ _ _) as [cs1 [[pa made]|e| |]] eqn:AS; try discriminate. injection E as _ <-. cbn in K. injection K as <- <-.
      exists pa. split; [reflexivity|]. unfold analyze_struct in AS. destruct (ac_fatal cfg (xname x)); [discriminate|].
      destruct (get_bases (sd_fields d0)) as [bs| | |] eqn:G; try discriminate. destruct (get_bases_sound _ _ G) as [G1 G2].
      assert (CA : pa_castable pa = filter (fun b => ac_allow cfg (to_cpp_name b)) (map fst (filter snd bs))).
      { destruct (get_struct_field_types _ _ _ _) as [cs2 [fo|e| |]]; cbn [tbind] in AS; try discriminate.
        destruct (existsb fi_opaque (fo_info fo)); [injection AS as _ <- _; reflexivity|].
        destruct (is_pod db (xname x)); [|injection AS as _ <- _; reflexivity].
        destruct (sd_rvalue d0); [discriminate|]. destruct (fo_errors fo); [|discriminate]. injection AS as _ <- _. reflexivity. }
      rewrite CA. split.
      + intros b I. apply filter_In in I as [I AL]. split; [|exact AL]. apply in_map_iff in I as ([b0 p] & <- & I). apply filter_In in I as [I SP]. cbn in SP. subst p.
        apply (G1 _ _ I).
      + intros b (f & ld & id & args & A1 & A2 & A3 & A4 & A5) NF AL. apply filter_In. split; [|exact AL].
        destruct (G2 f ld id args b A1 A2 A3 A4) as (p & I). apply in_map_iff. exists (b, p). split; [reflexivity|]. apply filter_In. split; [exact I|]. cbn.
        destruct p; [reflexivity|]. exfalso. apply NF. apply (G1 _ _ I). }
  assert (X : forall z, x_ignored z = true -> bases_sound z).
  { intros z I d a K. unfold x_ignored in I. rewrite K in I. discriminate. }
  assert (M : Forall made_item extra).
  { change (Forall made_item (snd (cs, extra))). eapply (x_convert_state (fun s => Forall made_item (snd s))); [| |exact C].
    - intros. eapply pod_state; eauto.
    - constructor. }
  rewrite Forall_forall in M. apply xextend_in in Hy as [Hy|[Hy|(w & _ & ->)]]; [|apply M in Hy as [(p & q & def & rs & ->)|(p & q & ->)]; intros d a K; discriminate | apply X; reflexivity].
  apply xextend_in in Hy as [[]|[Hy|(w & _ & ->)]]; [|apply X; reflexivity].
  destruct (Forall2_in_r _ _ _ _ F Hy) as (x & _ & B). exact B.
Qed.
Lemma l3_struct l2 x d a : NoDup (map xname l2) -> In x (replace_hopeless_typedef_targets cfg l2) -> x_kind x = XStruct d a -> In x l2.
Proof.
  intros ND2 H3 K. destruct (hopeless_list _ ND2) as (ig & fw & _ & _ & E3 & _). rewrite E3 in H3. apply in_map_iff in H3 as (y2 & E & H2).
  unfold replace_hopeless in E. destruct (x_kind y2) eqn:K2; try (subst x; exact H2).
  - destruct err as [[e c]|]; subst x; [discriminate | exact H2].
  - destruct an as [[k deps]|]; [|subst x; exact H2]. destruct (negb (disjoint_q ig deps)); [destruct (x_nested y2); subst x; discriminate|].
    destruct (negb (disjoint_q fw deps)); subst x; [discriminate | exact H2].
Qed.

(** An entry whose name is not added is kept. *)
Lemma keep_front (g : xapi -> list xapi) l x : NoDup (map xname l) -> In x l ->
  (forall x' y, In x' l -> In y (g x') -> xname y <> xname x) -> In x (xextend cfg [] (flat_map (fun x => g x ++ [x]) l)).
Proof.
  intros ND Hx M. apply in_split in Hx as (l1 & l2 & E). rewrite E, flat_map_app. cbn [flat_map].
  rewrite <- app_assoc. rewrite app_assoc.
  change ([x] ++ flat_map (fun x0 => g x0 ++ [x0]) l2) with (x :: flat_map (fun x0 => g x0 ++ [x0]) l2).
  assert (N12 : ~ In (xname x) (map xname l1) /\ ~ In (xname x) (map xname l2)).
  { rewrite E, map_app in ND. cbn in ND. apply NoDup_remove_2 in ND. rewrite in_app_iff in ND. tauto. }
  assert (P : forall m, incl m l -> ~ In (xname x) (map xname m) -> ~ In (xname x) (map xname (flat_map (fun x0 => g x0 ++ [x0]) m))).
  { intros m Im N I. apply in_map_iff in I as (z & Ez & I). apply in_flat_map in I as (x0 & I0 & I). apply in_app_iff in I as [I|[I|[]]].
    - eapply M; [apply Im, I0 | exact I | exact Ez].
    - apply N. subst x0. rewrite <- Ez. apply in_map, I0. }
  apply xextend_once; [intros []| |].
  - rewrite map_app, in_app_iff. intros [I|I]; [revert I; apply P; [intros z Hz; rewrite E; apply in_app_iff; left; exact Hz | tauto]|].
    apply in_map_iff in I as (z & Ez & I). eapply M; [|exact I|exact Ez]. rewrite E. apply in_app_iff. right. left. reflexivity.
  - apply P; [intros z Hz; rewrite E; apply in_app_iff; right; right; exact Hz | tauto].
Qed.

(** Every struct which functions are analysed with has a cast to each of its public bases which the user
    allows, or an ignored item in its place; unless the name of the cast is one of an allocation function. *)
Theorem c80_casts_to_bases_partial : forall l r y d a b n,
  NoDup (map xname l) -> front cfg l = OOk r -> In y r -> x_kind y = XStruct d a ->
  declares_base d b true -> ~ declares_base d b false -> ac_allow cfg (to_cpp_name b) = true ->
  n = "cast_" +++ qn_item (xname y) +++ "_to_" +++ qn_item b ->
  (forall p, n <> p +++ "_autocxx_alloc" /\ n <> p +++ "_autocxx_free") ->
  exists c, In c r /\ xname c = QN (qn_ns (xname y)) n /\ (c = create_cast (xname y) b \/ x_ignored c = true).
Proof.
  intros l r y d a b n ND H Hy K B1 B2 AL NN NS. destruct (front_stages l r ND H) as (l1 & l2 & T & P & -> & ND1 & ND2 & ND3 & ND4).
  destruct (back_to_l4 l2 y) as [H4 H3]; [unfold x_ignored; rewrite K; reflexivity | congruence | exact Hy|].
  destruct (pod_bases _ _ P y (l3_struct _ _ _ _ ND2 H3 K) d a K) as (pa & -> & _ & CA). specialize (CA b B1 B2 AL).
  set (l3 := replace_hopeless_typedef_targets cfg l2) in *.
  destruct (added_or_ignored (flat_map (fun x => casts_for x ++ [x]) l3) [] (create_cast (xname y) b)) as (c4 & Hc4 & Ec & R4); [|reflexivity|].
  { apply in_flat_map. exists y. split; [exact H3|]. apply in_app_iff. left. unfold casts_for. rewrite K. apply in_map, CA. }
  assert (EN : xname (create_cast (xname y) b) = QN (qn_ns (xname y)) n) by (rewrite NN; unfold create_cast, xname at 1, name_for_cast; cbn [x_info an_name]; rewrite app_empty_r; reflexivity).
  exists c4. split; [|split; [congruence | exact R4]]. apply keep_front; [exact ND4 | exact Hc4|].
  intros x' z Hx' Hz E. destruct (allocs_stores _ _ Hz) as (q & _ & EZ). rewrite Ec, EN in E.
  destruct (NS (qn_item q)) as [N1 N2]. destruct EZ as [-> | ->]; cbn in E; injection E as _ E; [apply N1 | apply N2]; rewrite <- E; reflexivity.
Qed.

(** Every cast which was not parsed is one from a struct which was parsed to one of its public bases which the
    user allows; it takes a pointer to constant of the struct and gives a reference to constant of the base. *)
Theorem c80_only_to_bases : forall l r y f pv a k,
  NoDup (map xname l) -> front cfg l = OOk r -> In y r -> ~ (exists x, In x l /\ fate x y) ->
  x_kind y = XFunction f pv a -> f_synthetic f = Some (CbCast, k) ->
  exists x d a b, In x l /\ x_kind x = XStruct d a /\ declares_base d b true /\ ac_allow cfg (to_cpp_name b) = true /\
    f_inputs f = [("this", TPtr false (to_type_path (xname x)))] /\
    f_output f = Some (TPath [] "__bindgen_marker_Reference" [TPtr false (to_type_path b)]) /\
    f_self_ty f = Some (xname x).
Proof.
  intros l r y f pv a k ND H Hy NP K SY. destruct (function_origin _ _ _ _ _ _ ND H Hy K) as (l1 & l2 & T & P & ND1 & ND2 & [(x & q0 & Hx & ST & E)|[(x & d & pa & b & Hx & KX & Hb & E)|E]]).
  - exfalso. destruct E as [-> | ->]; injection K as <- _ _; cbn in SY; discriminate.
  - destruct (struct_back _ _ _ _ ND ND1 ND2 T P Hx) as (x0 & H0 & EI & EC); [left; eauto|].
    destruct (pod_bases _ _ P x (l3_struct _ _ _ _ ND2 Hx KX) d _ KX) as (pa' & EP & CA & _). injection EP as <-. destruct (CA b Hb) as [DB AL].
    rewrite KX in EC. cbn in EC. destruct (x_kind x0) eqn:K0; try discriminate. injection EC as <-.
    exists x0, d, an, b. split; [exact H0|]. split; [exact K0|]. split; [exact DB|]. split; [exact AL|].
    subst y. injection K as <- _ _. cbn [f_inputs f_output f_self_ty]. unfold xname. rewrite EI. split; [reflexivity|]. split; reflexivity.
  - contradiction.
Qed.
(** The list stands for the collection with its index: whatever is forgotten about the APIs, as long as names,
    being ignored and markers of clashes are kept. *)
Theorem c79_list_is_collection : forall (er : xapi -> api) v x w,
  (forall y, aname (er y) = xname y) -> (forall y, is_ignored (er y) = x_ignored y) ->
  (forall n, er (xmarker cfg n) = duplicate_marker (ac_builtin cfg) n) ->
  av_apis w = map er v -> (forall n, In n (av_names w) <-> In n (map aname (av_apis w))) ->
  av_apis (av_push (ac_builtin cfg) w (er x)) = map er (xpush cfg v x) /\
  forall n, In n (av_names (av_push (ac_builtin cfg) w (er x))) <-> In n (map aname (av_apis (av_push (ac_builtin cfg) w (er x)))).
Proof.
  intros er v x w EN EI EM EV IX.
  assert (MN : map aname (av_apis w) = map xname v) by (rewrite EV, map_map; apply map_ext, EN).
  assert (QM : qmem (xname x) (av_names w) = qmem (xname x) (map xname v)).
  { destruct (qmem (xname x) (map xname v)) eqn:Q.
    - apply qmem_In. apply IX. rewrite MN. apply qmem_In, Q.
    - apply qmem_nIn. intros I. apply IX in I. rewrite MN in I. apply qmem_nIn in Q. contradiction. }
  unfold av_push, xpush. rewrite EN, EI, QM.
  assert (AD : forall u a, (forall n, In n (av_names u) <-> In n (map aname (av_apis u))) ->
    forall n, In n (av_names (av_add u a)) <-> In n (map aname (av_apis (av_add u a)))).
  { intros u a IU n. unfold av_add. cbn [av_apis av_names]. rewrite qinsert_In, map_app, in_app_iff, IU. cbn. intuition congruence. }
  destruct (qmem (xname x) (map xname v)).
  - destruct (x_ignored x); [split; [exact EV | exact IX]|].
    assert (RN : forall n l s, In n (fold_left (fun s n => qinsert n s) l s) <-> In n s \/ In n l).
    { intros n l. induction l as [|m l IH]; intros s0; cbn; [tauto|]. rewrite IH, qinsert_In. intuition congruence. }
    unfold av_push_marker. set (u := av_retain _ w).
    assert (IU : forall n, In n (av_names u) <-> In n (map aname (av_apis u))) by (intros n; cbn; rewrite RN; cbn; tauto).
    assert (QU : qmem (xname x) (av_names u) = false).
    { apply qmem_nIn. intros I. apply IU in I. cbn in I. apply in_map_iff in I as (b & E & I). apply filter_In in I as [_ I].
      rewrite E, qn_eqb_refl in I. discriminate. }
    rewrite QU. split; [|apply AD, IU]. cbn [av_add av_apis u av_retain]. rewrite map_app. cbn [map]. rewrite EM. f_equal.
    rewrite EV. clear - EN. induction v as [|y v IH]; [reflexivity|]. cbn. rewrite EN. destruct (negb _); cbn; congruence.
  - split; [|apply AD, IX]. unfold av_add. cbn [av_apis]. rewrite EV, map_app. reflexivity.
Qed.
End Front.
Print Assumptions c78_targets_usable_partial.
Print Assumptions c78_never_itself.
Print Assumptions c78_opaque_only_if_hopeless.
Print Assumptions c78_forward_errors_kept.
Print Assumptions c79_nothing_lost_partial.
Print Assumptions c79_nothing_invented.
Print Assumptions c79_list_is_collection.
Print Assumptions c80_casts_to_bases_partial.
Print Assumptions c80_only_to_bases.
Print Assumptions c81_alloc_and_free_partial.
Print Assumptions c81_only_for_stored_types.

(** * Cases *)
Definition demo_cfg : acfg :=
  AC (fun _ => false) (fun _ => false) (fun _ => false) (fun _ => true) ["Hope"] [] [] (fun _ => true) (fun _ => false) (fun _ => false)
    (fun _ => None) 50.
Definition q0 (s : string) : qname := QN [] s.
Definition named0 (s : string) (k : xkind) : xapi := XA (AN (q0 s) None) k.
Definition rooted (s : string) : ty := TPath ["root"] s [].
Definition type_of (s : string) : xkind := XTypedef (TdType 0 (rooted s)) None None.
(** [class Base], [class Derived : public Base], [typedef Base Alias], [Bad] which was refused,
    [typedef Bad Hope] which the user asked to hold by value, [typedef Bad Hopeless], an erroneous forward
    declaration and a typedef of it, a nested typedef of [Bad] and a typedef of that, a [use] of [Bad],
    a Rust subclass, and a function called like the deallocation function of [Base]. *)
Definition demo : list xapi :=
  [named0 "Base" (XStruct (SD [BF (Some "x") true (TPath [] "i32" [])] false []) None);
   named0 "Derived" (XStruct (SD [BF (Some "_base") true (rooted "Base")] false []) None);
   named0 "Alias" (type_of "Base");
   named0 "Bad" (XIgnored (EOther "Bad") None);
   named0 "Hope" (type_of "Bad");
   named0 "Hopeless" (type_of "Bad");
   named0 "Fwd" (XForward (Some (EOther "Fwd", None)));
   named0 "OfFwd" (type_of "Fwd");
   XA (AN (q0 "Outer_Nested") (Some "Outer::Nested")) (type_of "Bad");
   named0 "OfNested" (type_of "Outer_Nested");
   named0 "Used" (XTypedef (TdUse (rooted "Bad")) None None);
   named0 "Sub" (XSubclass (q0 "Base"));
   named0 "Base_autocxx_free" (XFunction (Func "Base_autocxx_free" [] false None None VisPublic None None None None None None) PvOther None)].
Definition summary (l : list xapi) : list (string * string) :=
  map (fun x => (qn_item (xname x),
    match x_kind x with
    | XForward _ => "forward" | XOpaqueTypedef true => "opaque" | XOpaqueTypedef false => "opaque, by value" | XConcrete _ _ => "concrete"
    | XFunction _ _ _ => "function" | XTypedef _ _ _ => "typedef" | XStruct _ (Some _) => "struct" | XIgnored (EOther e) _ => e
    | XIgnored EDuplicateItems _ => "duplicate" | XSubclass _ => "subclass" | _ => "" end)) l.
Lemma demo_nodup : NoDup (map xname demo).
Proof. cbn. repeat constructor; cbn; intuition discriminate. Qed.
Lemma demo_parsed : parsed demo.
Proof. intros x i o a H K. repeat (destruct H as [<-|H]; [cbn in K; try discriminate; injection K as _ _ <-; reflexivity|]). destruct H. Qed.
Ltac in_list := vm_compute; repeat (first [left; reflexivity | right]).
Definition demo_r : list xapi := match front demo_cfg demo with OOk r => r | _ => [] end.
Lemma demo_front : front demo_cfg demo = OOk demo_r.
Proof. vm_compute. reflexivity. Qed.
Example front_case : summary demo_r =
  [("Base_autocxx_alloc", "function"); ("Base", "struct"); ("cast_Derived_to_Base", "function"); ("Derived_autocxx_alloc", "function");
   ("Derived_autocxx_free", "function"); ("Derived", "struct"); ("Alias", "typedef"); ("Bad", "Bad"); ("Hope", "opaque, by value");
   ("Hopeless", "opaque"); ("Fwd", "Fwd"); ("OfFwd", "opaque"); ("Outer_Nested", "NestedOpaqueTypedef"); ("OfNested", "typedef");
   ("Used", "typedef"); ("SubCpp_autocxx_alloc", "function"); ("SubCpp_autocxx_free", "function"); ("Sub", "subclass");
   ("Base_autocxx_free", "duplicate")].
Proof. vm_compute. reflexivity. Qed.
(** The hypotheses of the theorems are met by it. *)
Example front_case_hyps : NoDup (map xname demo) /\ parsed demo /\ front demo_cfg demo = OOk demo_r /\
  (exists x, In x demo_r /\ stores x (QN [] "SubCpp") /\ In (alloc_fn (QN [] "SubCpp")) demo_r) /\
  declares_base (SD [BF (Some "_base") true (rooted "Base")] false []) (q0 "Base") true /\
  ~ declares_base (SD [BF (Some "_base") true (rooted "Base")] false []) (q0 "Base") false /\
  In (create_cast (q0 "Derived") (q0 "Base")) demo_r /\ ~ made_up (q0 "Alias") /\
  In (named0 "Fwd" (XIgnored (EOther "Fwd") None)) demo_r.
Proof.
  split; [exact demo_nodup|]. split; [exact demo_parsed|]. split; [exact demo_front|]. split.
  { exists (named0 "Sub" (XSubclass (q0 "Base"))). split; [in_list|]. split; [right; split; [eexists; reflexivity | reflexivity] | in_list]. }
  split.
  { eexists _, ["root"], "Base", []. split; [left; reflexivity|]. split; [reflexivity|]. split; [reflexivity|]. split; [|reflexivity]. constructor. left. reflexivity. }
  split.
  { intros (f & ld & id & args & [<-|[]] & _ & _ & _ & E). discriminate. }
  split; [in_list|]. split; [|in_list].
  intros [(a & H)|[(a & H)|[(a & b & H)|(a & b & H)]]].
  - assert (E : ends_with "_autocxx_alloc" "Alias" = true) by (apply ends_with_spec; eauto). discriminate.
  - assert (E : ends_with "_autocxx_free" "Alias" = true) by (apply ends_with_spec; eauto). discriminate.
  - discriminate.
  - assert (E : contains "AutocxxConcrete" "Alias" = true) by (apply contains_spec; eauto). discriminate.
Qed.

(** There is one pass over the typedefs. A nested typedef of something refused is refused in that pass, and a
    typedef of it keeps it as its target. *)
Theorem c78_nested_refuted : exists cfg l r y g t o k deps z,
  NoDup (map xname l) /\ parsed l /\ front cfg l = OOk r /\ In y r /\ x_kind y = XTypedef (TdType g t) o (Some (k, deps)) /\
  refers_to (td_target k) (xname z) /\ In z r /\ x_ignored z = true.
Proof.
  exists demo_cfg, demo, demo_r, (named0 "OfNested" (XTypedef (TdType 0 (rooted "Outer_Nested")) None
    (Some (TdType 0 (TPath ["output"] "Outer_Nested" []), [q0 "Outer_Nested"])))), 0, (rooted "Outer_Nested"), None,
    (TdType 0 (TPath ["output"] "Outer_Nested" [])), [q0 "Outer_Nested"],
    (XA (AN (q0 "Outer_Nested") (Some "Outer::Nested")) (XIgnored (EOther "NestedOpaqueTypedef") (Some (ctx_for_item (fun _ => false) "Outer_Nested")))).
  split; [exact demo_nodup|]. split; [exact demo_parsed|]. split; [exact demo_front|]. split; [in_list|].
  split; [reflexivity|]. split; [constructor; right; reflexivity|]. split; [in_list | reflexivity].
Qed.
Print Assumptions c78_nested_refuted.

(** For a [use] no dependency is recorded, so that its target stays, even if it was refused. *)
Theorem c78_use_refuted : exists cfg l r y t o k deps z,
  NoDup (map xname l) /\ parsed l /\ front cfg l = OOk r /\ In y r /\ x_kind y = XTypedef (TdUse t) o (Some (k, deps)) /\
  refers_to (td_target k) (xname z) /\ In z l /\ x_ignored z = true /\ ~ In (xname z) deps.
Proof.
  exists demo_cfg, demo, demo_r, (named0 "Used" (XTypedef (TdUse (rooted "Bad")) None (Some (TdUse (rooted "Bad"), [])))),
    (rooted "Bad"), None, (TdUse (rooted "Bad")), [], (named0 "Bad" (XIgnored (EOther "Bad") None)).
  split; [exact demo_nodup|]. split; [exact demo_parsed|]. split; [exact demo_front|]. split; [in_list|].
  split; [reflexivity|]. split; [constructor; left; reflexivity|]. split; [in_list|]. split; [reflexivity | intros []].
Qed.
Print Assumptions c78_use_refuted.

(** A C++ function called [Base_autocxx_free] takes the deallocation function away from the class [Base], which
    keeps its allocation function; neither of the two is left under that name. *)
Theorem c81_pairing_refuted : exists cfg l r x q,
  NoDup (map xname l) /\ parsed l /\ front cfg l = OOk r /\ In x r /\ stores x q /\ In (alloc_fn q) r /\
  forall y, In y r -> xname y = xname (free_fn q) -> x_ignored y = true.
Proof.
  assert (E : exists x, In x demo_r /\ xname x = q0 "Base" /\ exists d a, x_kind x = XStruct d a).
  { vm_compute. eexists. split; [right; left; reflexivity|]. split; [reflexivity | eauto]. }
  destruct E as (x & Hx & EN & ES). exists demo_cfg, demo, demo_r, x, (q0 "Base").
  split; [exact demo_nodup|]. split; [exact demo_parsed|]. split; [exact demo_front|]. split; [exact Hx|].
  split; [left; split; [exact ES | symmetry; exact EN]|]. clear. split; [in_list|].
  assert (F : forallb (fun y => negb (qn_eqb (xname y) (xname (free_fn (q0 "Base")))) || x_ignored y) demo_r = true) by (vm_compute; reflexivity).
  rewrite forallb_forall in F. intros y Hy E. specialize (F y Hy). rewrite E, qn_eqb_refl in F. exact F.
Qed.
Print Assumptions c81_pairing_refuted.
