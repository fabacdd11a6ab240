(** C13: names made up by autocxx determine what they were made from. *)
From Verif Require Import Base ApiModel ApiSpec ApiVecModel ApiVecProofs SynthNamesModel SynthNamesProofs.

(** Allocation and deallocation functions: one source each, and the two kinds never meet. *)
Theorem c13_alloc_free_determine_type :
  forall a b,
    (get_alloc_name a = get_alloc_name b -> a = b) /\
    (get_free_name a = get_free_name b -> a = b) /\
    get_alloc_name a <> get_free_name b.
Proof.
  intros [na ia] [nb ib]. unfold get_alloc_name, get_free_name, alloc_get_name. cbn [qn_ns qn_item].
  split; [|split]; intros H; injection H as H1 H2.
  - apply sapp_inj_r in H2. congruence.
  - apply sapp_inj_r in H2. congruence.
  - assert (X : forall s t : string, s +++ "loc" = t +++ "ree" -> False).
    { intros s t E. assert (L : String.length s = String.length t).
      { apply (f_equal String.length) in E. rewrite !slen_app in E. simpl in E. lia. }
      destruct (sapp_eq_len _ _ _ _ L E) as [_ E2]. discriminate E2. }
    apply (X (ia +++ "_autocxx_al") (ib +++ "_autocxx_f")). rewrite !sapp_assoc. exact H2.
Qed.
Print Assumptions c13_alloc_free_determine_type.

(** The C++ class an API stands for, if it is one that can be allocated. *)
Definition allocatable (a : api) : list qname :=
  match api_kind_of a with
  | KStruct _ => [aname a]
  | KSubclass _ => [QN (qn_ns (aname a)) (qn_item (aname a) +++ "Cpp")]
  | _ => []
  end.
(** In a collection where no two APIs stand for the same C++ class, all the allocation and
    deallocation functions have different names, and every such class gets both. *)
Theorem c13_alloc_free_distinct_across_collection :
  forall l, NoDup (flat_map allocatable l) ->
    NoDup (flat_map alloc_and_free_names l) /\
    forall c, In c (flat_map allocatable l) ->
      In (get_alloc_name c) (flat_map alloc_and_free_names l) /\
      In (get_free_name c) (flat_map alloc_and_free_names l).
Proof.
  assert (S : forall a, alloc_and_free_names a = flat_map (fun c => [get_alloc_name c; get_free_name c]) (allocatable a)).
  { intros a. unfold alloc_and_free_names, allocatable, subclass_cpp. destruct (api_kind_of a); reflexivity. }
  assert (F : forall l, flat_map alloc_and_free_names l
              = flat_map (fun c => [get_alloc_name c; get_free_name c]) (flat_map allocatable l)).
  { induction l as [|a l IH]; [reflexivity|]. cbn [flat_map]. rewrite flat_map_app, S, IH. reflexivity. }
  intros l N. rewrite F. generalize dependent (flat_map allocatable l). clear. intros cs N. split.
  - induction N as [|c cs Hc N IH]; [constructor|]. cbn [flat_map app].
    assert (X : forall c', In c' cs -> c' <> c) by (intros c' H ->; contradiction).
    constructor; [|constructor; [|exact IH]].
    + intros [H|H].
      * destruct (c13_alloc_free_determine_type c c) as (_ & _ & D). congruence.
      * apply in_flat_map in H. destruct H as (c' & Hc' & [H|[H|[]]]).
        -- apply (X c' Hc'). exact (proj1 (c13_alloc_free_determine_type c' c) H).
        -- destruct (c13_alloc_free_determine_type c c') as (_ & _ & D). congruence.
    + intros H. apply in_flat_map in H. destruct H as (c' & Hc' & [H|[H|[]]]).
      * destruct (c13_alloc_free_determine_type c' c) as (_ & _ & D). congruence.
      * apply (X c' Hc'). exact (proj1 (proj2 (c13_alloc_free_determine_type c' c)) H).
  - intros c Hc. split; apply in_flat_map; exists c; (split; [exact Hc|]); [left | right; left]; reflexivity.
Qed.
Print Assumptions c13_alloc_free_distinct_across_collection.

(** Names made for a subclass determine it, the four names of one subclass are different, and
    the holder name leads back to the subclass. Subclasses live in the root namespace. *)
Theorem c13_subclass_names_determine_subclass :
  forall a b : string,
    let A := QN [] a in let B := QN [] b in
    (sc_holder A = sc_holder B -> a = b) /\
    (subclass_cpp A = subclass_cpp B -> a = b) /\
    (sc_cpp_remove_ownership A = sc_cpp_remove_ownership B -> a = b) /\
    (sc_remove_ownership A = sc_remove_ownership B -> a = b) /\
    (peer_ctor_name A = peer_ctor_name B -> a = b) /\
    NoDup [sc_holder A; qn_item (subclass_cpp A); sc_cpp_remove_ownership A; sc_remove_ownership A] /\
    from_holder_name (sc_holder A) = Some A /\
    sc_holder A <> qn_item (subclass_cpp B).
Proof.
  intros a b A B. unfold A, B, sc_holder, sc_cpp_remove_ownership, sc_remove_ownership, sc_with_suffix, subclass_cpp,
    peer_ctor_name, from_holder_name, subclass_cpp; cbn [qn_item qn_ns].
  split; [apply sapp_inj_r|]. split; [intros H; injection H as H; apply sapp_inj_r in H; exact H|].
  split; [apply sapp_inj_r|]. split; [apply sapp_inj_r|]. split.
  - intros H. injection H as H.
    assert (L : String.length a = String.length b).
    { apply (f_equal String.length) in H. rewrite !slen_app in H. cbn [String.length] in H.
      repeat rewrite slen_app in H. cbn [String.length] in H. lia. }
    rewrite !sapp_assoc in H. destruct (sapp_eq_len _ _ _ _ L H) as [E _]. exact E.
  - split.
    + repeat constructor; cbn [In]; intros H; repeat (destruct H as [H|H]; [apply sapp_inj_l in H; discriminate H|]); exact H.
    + split; [rewrite strip_suffix_app; reflexivity|].
      intros H. assert (X : forall s t : string, s +++ "der" = t +++ "Cpp" -> False).
      { intros s t E. assert (L : String.length s = String.length t).
        { apply (f_equal String.length) in E. rewrite !slen_app in E. simpl in E. lia. }
        destruct (sapp_eq_len _ _ _ _ L E) as [_ E2]. discriminate E2. }
      apply (X (a +++ "Hol") b). rewrite sapp_assoc. exact H.
Qed.
Print Assumptions c13_subclass_names_determine_subclass.

(** Different kinds can meet across subclasses: subclasses A and ACpp. *)
Theorem c13_remove_ownership_clash_refuted :
  exists a b, a <> b /\ sc_remove_ownership a = sc_cpp_remove_ownership b.
Proof. exists (QN [] "ACpp"), (QN [] "A"). split; [discriminate | reflexivity]. Qed.

(** Traits made for a superclass determine it, and the two kinds differ. *)
Theorem c13_superclass_traits_determine_superclass :
  forall a b,
    (methods_trait_name a = methods_trait_name b -> a = b) /\
    (supers_trait_name a = supers_trait_name b -> a = b) /\
    methods_trait_name a <> supers_trait_name b /\
    (forall ns x y, super_fn_name ns x = super_fn_name ns y -> x = y).
Proof.
  intros [na ia] [nb ib]. unfold methods_trait_name, supers_trait_name, super_fn_name; cbn [qn_ns qn_item].
  split; [|split; [|split]].
  - intros H; injection H as H1 H2. apply sapp_inj_r in H2. congruence.
  - intros H; injection H as H1 H2. apply sapp_inj_r in H2. congruence.
  - intros H; injection H as H1 H2.
    assert (X : forall s t : string, s +++ "ds" = t +++ "rs" -> False).
    { intros s t E. assert (L : String.length s = String.length t).
      { apply (f_equal String.length) in E. rewrite !slen_app in E. simpl in E. lia. }
      destruct (sapp_eq_len _ _ _ _ L E) as [_ E2]. discriminate E2. }
    apply (X (ia +++ "_metho") (ib +++ "_supe")). rewrite !sapp_assoc. exact H2.
  - intros ns x y H. injection H as H. apply sapp_inj_r in H. exact H.
Qed.
Print Assumptions c13_superclass_traits_determine_superclass.

(** Trait items and override entry points are joined with an underscore: they determine their
    source when the class name has none (or is the same). *)
Definition no_underscore (s : string) : Prop := ~ exists a b, s = a +++ "_" +++ b.
Theorem c13_trait_items_partial :
  forall sup1 m1 sup2 m2,
    (no_underscore (qn_item sup1) /\ no_underscore (qn_item sup2)) \/ sup1 = sup2 ->
    trait_api_name sup1 m1 = trait_api_name sup2 m2 -> sup1 = sup2 /\ m1 = m2.
Proof.
  intros [n1 i1] m1 [n2 i2] m2 H E. unfold trait_api_name in E; cbn [qn_ns qn_item] in *.
  injection E as E1 E2. assert (E3 : i1 +++ "_" +++ m1 = i2 +++ "_" +++ m2).
  { apply (sapp_inj_r _ _ "_trait_item"). rewrite !sapp_assoc. exact E2. }
  destruct H as [[H1 H2]|H].
  - destruct (first_sep_split "" "_" i1 m1 i2 m2) as [-> ->]; [| |exact E3|subst; auto].
    + rewrite app_empty_r. change ("" +++ "_") with "_". destruct (contains "_" i1) eqn:C; [|reflexivity].
      apply contains_spec in C. contradiction.
    + rewrite app_empty_r. change ("" +++ "_") with "_". destruct (contains "_" i2) eqn:C; [|reflexivity].
      apply contains_spec in C. contradiction.
  - injection H as -> ->. split; [reflexivity|]. apply sapp_inj_l in E3. apply sapp_inj_l in E3. exact E3.
Qed.
Print Assumptions c13_trait_items_partial.
(** Underscores in names make two trait items one: method [b_c] of [A] and method [c] of [A_b] have the same name. *)
Theorem c13_trait_items_refuted :
  exists sup1 m1 sup2 m2, sup1 <> sup2 /\ trait_api_name sup1 m1 = trait_api_name sup2 m2.
Proof. exists (QN [] "A"), "b_c", (QN [] "A_b"), "c". split; [discriminate | reflexivity]. Qed.

Theorem c13_overrides_partial :
  forall sub1 m1 sub2 m2,
    (no_underscore (qn_item sub1) /\ no_underscore (qn_item sub2)) \/ sub1 = sub2 ->
    override_name sub1 m1 = override_name sub2 m2 -> qn_item sub1 = qn_item sub2 /\ qn_item m1 = qn_item m2.
Proof.
  intros [n1 i1] [p1 m1] [n2 i2] [p2 m2] H E. unfold override_name in E; cbn [qn_ns qn_item] in *.
  injection E as E2. destruct H as [[H1 H2]|H].
  - apply (first_sep_split "" "_" i1 m1 i2 m2); [| |exact E2].
    + rewrite app_empty_r. change ("" +++ "_") with "_". destruct (contains "_" i1) eqn:C; [|reflexivity].
      apply contains_spec in C. contradiction.
    + rewrite app_empty_r. change ("" +++ "_") with "_". destruct (contains "_" i2) eqn:C; [|reflexivity].
      apply contains_spec in C. contradiction.
  - injection H as -> ->. split; [reflexivity|]. apply sapp_inj_l in E2. injection E2 as E2. exact E2.
Qed.
Print Assumptions c13_overrides_partial.
(** Likewise the overrides for method [b_c] of subclass [A] and for method [c] of subclass [A_b]. *)
Theorem c13_overrides_refuted :
  exists sub1 m1 sub2 m2, sub1 <> sub2 /\ override_name sub1 m1 = override_name sub2 m2.
Proof. exists (QN [] "A"), (QN [] "b_c"), (QN [] "A_b"), (QN [] "c"). split; [discriminate | reflexivity]. Qed.

(** Casts: the pair is determined up to the namespace of the target, when the source's name,
    followed by an underscore, does not contain "_to_". *)
Theorem c13_cast_names_partial :
  forall f1 t1 f2 t2,
    contains "_to_" (qn_item f1 +++ "_") = false -> contains "_to_" (qn_item f2 +++ "_") = false ->
    name_for_cast f1 t1 ConstToConst = name_for_cast f2 t2 ConstToConst ->
    f1 = f2 /\ qn_item t1 = qn_item t2.
Proof.
  intros [n1 a] [p1 b] [n2 c] [p2 d] H1 H2 E. unfold name_for_cast in E; cbn [qn_ns qn_item] in *.
  injection E as E1 E2. rewrite !app_empty_r in E2.
  assert (K : forall s, contains "_to_" (s +++ "_") = false -> contains "_to_" (s +++ "_to") = false).
  { intros s H. destruct (contains "_to_" (s +++ "_to")) eqn:C; [|reflexivity].
    assert (X : contains "_to_" (s +++ "_") = true); [|congruence]. clear H.
    apply contains_spec in C. destruct C as (x & y & C). apply contains_spec.
    (* an occurrence in [s_to] lies in [s_]: the last two characters cannot be part of it *)
    assert (G : exists y', s +++ "_" = x +++ "_to_" +++ y').
    { assert (E : (s +++ "_") +++ "to" = (x +++ "_to_") +++ y) by (rewrite !sapp_assoc; exact C).
      destruct (sapp_cases _ _ _ _ E) as [[t [T1 T2]]|[t [T1 T2]]].
      - exists t. rewrite T1, sapp_assoc. reflexivity.
      - destruct t as [|c1 t].
        + exists "". rewrite !app_empty_r in *. symmetry. exact T1.
        + exfalso. change (String c1 t +++ y) with (String c1 (t +++ y)) in T2. injection T2 as <- T2.
          destruct t as [|c2 t].
          * (* x_to_ = s_t *)
            assert (Z : (x +++ "_to") +++ "_" = (s +++ "_") +++ "t") by (rewrite sapp_assoc; exact T1).
            assert (L : String.length (x +++ "_to") = String.length (s +++ "_")).
            { apply (f_equal String.length) in Z. rewrite !slen_app in Z. rewrite !slen_app. cbn [String.length] in *. lia. }
            destruct (sapp_eq_len _ _ _ _ L Z) as [_ Z2]. discriminate Z2.
          * change (String c2 t +++ y) with (String c2 (t +++ y)) in T2. injection T2 as <- T2.
            destruct t as [|c3 t]; [|discriminate T2].
            assert (Z : (x +++ "_to") +++ "_" = (s +++ "_t") +++ "o").
            { rewrite !sapp_assoc. rewrite sapp_assoc in T1. exact T1. }
            assert (L : String.length (x +++ "_to") = String.length (s +++ "_t")).
            { apply (f_equal String.length) in Z. rewrite !slen_app in Z. rewrite !slen_app. cbn [String.length] in *. lia. }
            destruct (sapp_eq_len _ _ _ _ L Z) as [_ Z2]. discriminate Z2. }
    destruct G as [y' G]. exists x, y'. exact G. }
  destruct (first_sep_split "_to" "_" a b c d) as [-> ->]; [apply K, H1 | apply K, H2 | exact E2 | subst; auto].
Qed.
Print Assumptions c13_cast_names_partial.

(** Two bases with the same unqualified name: the casts to both get one name, and collecting them
    leaves only a duplicate marker, so neither cast is generated. *)
Theorem c13_cast_to_same_named_bases_refuted :
  exists from b1 b2, b1 <> b2 /\ name_for_cast from b1 ConstToConst = name_for_cast from b2 ConstToConst /\
    forall mk, (forall n, aname (mk n) = n /\ ~ ignored (mk n)) ->
    forall builtin c, In c (av_apis (av_from_list builtin (map mk (cast_names from [b1; b2])))) -> ignored c.
Proof.
  exists (QN [] "D"), (QN ["x"] "B"), (QN ["y"] "B"). split; [discriminate|]. split; [reflexivity|].
  intros mk M builtin c. unfold cast_names; cbn [map].
  change (name_for_cast (QN [] "D") (QN ["y"] "B") ConstToConst)
    with (name_for_cast (QN [] "D") (QN ["x"] "B") ConstToConst).
  destruct (M (name_for_cast (QN [] "D") (QN ["x"] "B") ConstToConst)) as [N I].
  set (a := mk (name_for_cast (QN [] "D") (QN ["x"] "B") ConstToConst)) in *.
  intros H. assert (E : survivor builtin (aname c) (named (aname c) [a; a]) = Some c).
  { apply from_list_entry. split; [exact H | reflexivity]. }
  unfold named in E; cbn [filter] in E. destruct (qn_eqb (aname a) (aname c)); [|discriminate E].
  cbn [survivor forallb] in E. apply not_ignored_is in I. rewrite I in E. cbn [andb] in E.
  injection E as <-. constructor.
Qed.
Print Assumptions c13_cast_to_same_named_bases_refuted.

(** And across classes: A_to_B cast to C against A cast to B_to_C. *)
Theorem c13_cast_separator_refuted :
  exists f1 t1 f2 t2, f1 <> f2 /\ name_for_cast f1 t1 ConstToConst = name_for_cast f2 t2 ConstToConst.
Proof.
  exists (QN [] "A_to_B"), (QN [] "C"), (QN [] "A"), (QN [] "B_to_C"). split; [discriminate | reflexivity].
Qed.

Example c13_nonvacuous :
  NoDup (flat_map allocatable
    [API (AN (QN ["n"] "A") None) (KStruct {| st_kind := Pod; st_bases := []; st_field_deps := [];
       st_field_def_deps := []; st_num_generics := 0; st_ctor_deps := [] |});
     API (AN (QN [] "Sub") None) (KSubclass (QN ["n"] "A")); API (AN (QN [] "e") None) KEnum]) /\
  cast_names (QN ["n"] "Derived_") [QN [] "Base"] = [QN ["n"] "cast_Derived__to_Base"] /\
  contains "_to_" ("Derived_" +++ "_") = false /\
  trait_api_name (QN ["n"] "Obs") "on_event" = QN ["n"] "Obs_on_event_trait_item".
Proof. repeat split; repeat constructor; cbn; intuition discriminate. Qed.
