(** C21: each template instantiation gets its own name. *)
From Verif Require Import Base QNamesModel ApiModel TypesModel CppTypesModel ConcreteNamesModel ConcreteNamesProofs.

(** Names the user chose with [concrete!] (or an earlier phase made): one per instantiation, all different,
    and no "AutocxxConcrete<n>" with a number the converter has not reached yet. *)
Definition sensible_start (cs : concretes) : Prop :=
  NoDup (map fst cs) /\ NoDup (map (fun p => qn_item (snd p)) cs) /\
  forall p k, In p cs -> qn_item (snd p) = "AutocxxConcrete" +++ dec k -> k < length cs.

(** For every sequence of requests: the same instantiation gets the same name, different ones different
    names, instantiations named by the user keep that name, and no other one gets it. *)
Theorem c21_one_name_per_instantiation_partial :
  forall cs0 defs cs names, sensible_start cs0 -> concrete_run cs0 defs = (cs, names) ->
    length names = length defs /\
    (forall i j d e n m, nth_error defs i = Some d -> nth_error names i = Some n ->
       nth_error defs j = Some e -> nth_error names j = Some m -> (d = e <-> qn_item n = qn_item m)) /\
    (forall i d n e m, nth_error defs i = Some d -> nth_error names i = Some n -> In (e, m) cs0 ->
       (d = e <-> qn_item n = qn_item m) /\ (d = e -> n = m)).
Proof.
  intros cs0 defs cs names I R. destruct (run_inv _ _ _ _ I R) as ((K1 & K2 & K3) & F & M).
  assert (NTH : forall i d n, nth_error defs i = Some d -> nth_error names i = Some n -> sget d cs = Some n).
  { clear -F. induction F as [|d n ds ns H F IH]; intros [|i] x y; cbn; try discriminate.
    - intros H1 H2; injection H1 as <-; injection H2 as <-; exact H.
    - apply IH. }
  assert (INJ : forall d e n m, sget d cs = Some n -> sget e cs = Some m -> (d = e <-> qn_item n = qn_item m)).
  { intros d e n m Hd He. split; [intros <-; congruence|]. intros X. apply sget_In in Hd, He.
    assert (P : (d, n) = (e, m)); [|congruence].
    apply (NoDup_map_inj_in (fun p => qn_item (snd p)) cs); auto. }
  split; [symmetry; clear -F; induction F; cbn; congruence|]. split.
  - intros i j d e n m H1 H2 H3 H4. apply INJ; eauto.
  - intros i d n e m H1 H2 H3.
    assert (He : sget e cs = Some m) by (apply M; apply in_nodup_sget; [apply I | exact H3]).
    split; [apply INJ; eauto|]. intros <-. rewrite (NTH _ _ _ H1 H2) in He. congruence.
Qed.
Print Assumptions c21_one_name_per_instantiation_partial.

(** The condition on the start is kept, so it also holds when the next phase starts from these names. *)
Theorem c21_start_condition_kept :
  forall cs0 defs cs names, sensible_start cs0 -> concrete_run cs0 defs = (cs, names) -> sensible_start cs.
Proof. intros. eapply run_inv; eauto. Qed.
Print Assumptions c21_start_condition_kept.

(** Invented names only have identifier characters and no double underscore, so cxx accepts them. *)
Theorem c21_names_acceptable_to_cxx :
  forall cs d cs' n, get_templated_typename cs d = (cs', n, true) ->
    qn_ns n = [] /\ all_chars (fun c => is_alnum c || Ascii.eqb c "_") (qn_item n) = true /\
    (forall a b, qn_item n <> a +++ "__" +++ b).
Proof.
  intros cs d cs' n H. unfold get_templated_typename in H. destruct (sget d cs); [discriminate|].
  cbv zeta in H. set (id := if existsb _ cs then _ else _) in H.
  assert (En : n = QN [] id) by congruence. subst n. clear H. cbn [qn_ns qn_item]. split; [reflexivity|].
  assert (C : forall s, contains "__" s = false -> forall a b, s <> a +++ "__" +++ b).
  { intros s Hs a b E. assert (X : contains "__" s = true) by (apply contains_spec; eauto). congruence. }
  unfold id. destruct (existsb _ cs).
  - split; [|apply C].
    + rewrite all_chars_app. change (fun c => is_alnum c || Ascii.eqb c "_") with ident_char. rewrite dec_chars. reflexivity.
    + rewrite contains_uu_skip by reflexivity. pose proof (dec_digits (length cs)) as D. revert D.
      generalize (dec (length cs)). induction s as [|c s IH]; [reflexivity|]. cbn [all_chars]. intros D.
      apply andb_true_iff in D. destruct D as [D1 D2]. cbn [contains]. rewrite IH by exact D2. rewrite orb_false_r.
      rewrite starts_with_cons. destruct (Ascii.eqb "_" c) eqn:U; [|reflexivity].
      apply Ascii.eqb_eq in U. subst c. discriminate D1.
  - split; [exact (synthetic_chars d) | apply C, synthetic_no_uu].
Qed.
Print Assumptions c21_names_acceptable_to_cxx.

(** Without the condition on user-chosen names two instantiations can share a name: the user calls one
    AutocxxConcrete2, and two others sanitise to the same thing. *)
Theorem c21_user_name_clash_refuted :
  exists cs0 defs i d e n, NoDup (map fst cs0) /\ NoDup (map snd cs0) /\
    nth_error defs i = Some d /\ nth_error (snd (concrete_run cs0 defs)) i = Some n /\ In (e, n) cs0 /\ d <> e.
Proof.
  exists [("D<int>", QN [] "AutocxxConcrete2")], ["A<b*>"; "A<b&>"], 1, "A<b&>", "D<int>", (QN [] "AutocxxConcrete2").
  split; [repeat constructor; intros []|]. split; [repeat constructor; intros []|].
  split; [reflexivity|]. split; [vm_compute; reflexivity|]. split; [left; reflexivity | discriminate].
Qed.

(** Arguments which are not types are left out of the C++ spelling, so two instantiations which differ
    only there get one name. *)
Theorem c21_value_arguments_refuted :
  exists t1 t2 n, t1 <> t2 /\
    (exists c1, templated_typename_of [] [] t1 = COk (c1, n, true) /\
     exists c2, templated_typename_of [] c1 t2 = COk (c2, n, false)).
Proof.
  exists (TPath ["root"] "Arr" [TPath [] "u8" []; TNonType "3"]),
         (TPath ["root"] "Arr" [TPath [] "u8" []; TNonType "4"]), (QN [] "Arr_uint8_t_AutocxxConcrete").
  split; [discriminate|]. eexists. split; [vm_compute; reflexivity|]. eexists. vm_compute. reflexivity.
Qed.

Example c21_nonvacuous :
  sensible_start [("W<int>", QN [] "MyW")] /\
  snd (concrete_run [("W<int>", QN [] "MyW")] ["A<b*>"; "A<b&>"; "W<int>"; "A<b*>"; "std::map<int, A<b> >"]) =
    [QN [] "A_b_AutocxxConcrete"; QN [] "AutocxxConcrete2"; QN [] "MyW"; QN [] "A_b_AutocxxConcrete";
     QN [] "std_map_int_A_b_AutocxxConcrete"].
Proof.
  split; [|vm_compute; reflexivity]. split; [repeat constructor; intros []|].
  split; [repeat constructor; intros []|]. intros p k [<-|[]] H. cbn [snd qn_item] in H.
  change ("AutocxxConcrete" +++ dec k) with (String "A" ("utocxxConcrete" +++ dec k)) in H. discriminate H.
Qed.
