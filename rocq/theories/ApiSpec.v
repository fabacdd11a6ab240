(** Vocabulary for statements about APIs, written as relations that do not use the
    accessors of ApiModel, and the lemmas connecting the two. *)
From Verif Require Import Base ApiModel.

(** What an API needs: [depends_on a d]. A struct handled by value needs its fields and bases;
    every struct needs its constructors and allocators; an alias needs what it was declared as
    and every type in its target; a function needs every type in its signature. *)
Inductive depends_on : api -> qname -> Prop :=
| dep_alias i old ds d : In d ds \/ old = Some d -> depends_on (API i (KTypedef old ds)) d
| dep_pod_field i s d : st_kind s = Pod -> In d (st_field_deps s) -> depends_on (API i (KStruct s)) d
| dep_pod_base i s d : st_kind s = Pod -> In d (st_bases s) -> depends_on (API i (KStruct s)) d
| dep_ctor i s d : In d (st_ctor_deps s) -> depends_on (API i (KStruct s)) d
| dep_fn i f d : In d (fn_deps f) -> depends_on (API i (KFunction f)) d
| dep_super i d : depends_on (API i (KSubclass d)) d
| dep_subclass_fn i sub ds d : In d ds -> depends_on (API i (KRustSubclassFn sub ds)) d
| dep_rust_fn i ds d : In d ds -> depends_on (API i (KRustFn ds)) d.

Lemma depends_on_deps a d : depends_on a d <-> In d (deps a).
Proof.
  split.
  - intros H. destruct H; unfold deps; cbn [api_kind_of].
    + destruct H as [H| ->]; [destruct old; [right|]; exact H | left; reflexivity].
    + rewrite H. apply in_or_app; left; assumption.
    + rewrite H. apply in_or_app; right; apply in_or_app; left; assumption.
    + destruct (st_kind s); try assumption. apply in_or_app; right; apply in_or_app; right; assumption.
    + assumption.
    + left; reflexivity.
    + assumption.
    + assumption.
  - destruct a as [i k]. unfold deps; cbn [api_kind_of].
    destruct k; intros H; try contradiction; try (now constructor).
    + destruct old_tyname as [o|]; apply dep_alias; [destruct H as [->|H]; auto | auto].
    + destruct (st_kind s) eqn:K; try (apply dep_ctor; exact H).
      apply in_app_or in H; destruct H as [H|H]; [apply dep_pod_field; assumption|].
      apply in_app_or in H; destruct H as [H|H]; [apply dep_pod_base; assumption | apply dep_ctor; assumption].
    + destruct H as [->|[]]. constructor.
Qed.

(** What must be defined before an API can be: [needs_definition a d]. Only structs need
    anything, and they need the types they hold by value and their bases. *)
Inductive needs_definition : api -> qname -> Prop :=
| nd_field i s d : In d (st_field_def_deps s) -> needs_definition (API i (KStruct s)) d
| nd_base i s d : In d (st_bases s) -> needs_definition (API i (KStruct s)) d.
Lemma needs_definition_fb a d : needs_definition a d <-> In d (field_and_base_deps a).
Proof.
  split.
  - intros H. destruct H; unfold field_and_base_deps; cbn [api_kind_of]; apply in_or_app; auto.
  - destruct a as [i k]. unfold field_and_base_deps; cbn [api_kind_of].
    destruct k; try contradiction. intros H. apply in_app_or in H.
    destruct H; [apply nd_field | apply nd_base]; assumption.
Qed.

(** The names an API makes available: its own, and for a subclass also the two types
    generated for it. *)
Inductive provides : api -> qname -> Prop :=
| prov_self i k : provides (API i k) (an_name i)
| prov_holder i sup : provides (API i (KSubclass sup)) (QN [] (qn_item (an_name i) +++ "Holder"))
| prov_cpp i sup :
    provides (API i (KSubclass sup)) (QN (qn_ns (an_name i)) (qn_item (an_name i) +++ "Cpp")).
Lemma provides_valid_types a d : provides a d <-> In d (valid_types a).
Proof.
  split.
  - intros H. destruct H; unfold valid_types; cbn [api_kind_of].
    + destruct k; left; reflexivity.
    + right; left; reflexivity.
    + right; right; left; reflexivity.
  - destruct a as [i k]. unfold valid_types; cbn [api_kind_of].
    destruct k; intros [<-|H]; try constructor; try contradiction.
    destruct H as [<-|[<-|[]]]; constructor.
Qed.

(** The name by which a user asks for an API: members are asked for by their class, generated
    overrides by their subclass, free functions by their own identifier in their namespace, ignored
    items by what the error is about, everything else by its name. *)
Inductive asked_as : api -> qname -> Prop :=
| ask_method i f mk q : fn_kind_of f = FMethod mk q -> asked_as (API i (KFunction f)) q
| ask_trait i f tk q : fn_kind_of f = FTraitMethod tk q -> asked_as (API i (KFunction f)) q
| ask_fn i f : fn_kind_of f = FFunction -> asked_as (API i (KFunction f)) (QN (qn_ns (an_name i)) (fn_ident f))
| ask_override i sub ds : asked_as (API i (KRustSubclassFn sub ds)) sub
| ask_bad_method i e c m : asked_as (API i (KIgnored e (Some (CtxMethod c m)))) (QN (qn_ns (an_name i)) c)
| ask_bad_item i e id : asked_as (API i (KIgnored e (Some (CtxItem id)))) (QN (qn_ns (an_name i)) id)
| ask_plain i k :
    (forall f, k <> KFunction f) -> (forall s ds, k <> KRustSubclassFn s ds) ->
    (forall e c m, k <> KIgnored e (Some (CtxMethod c m))) ->
    (forall e id, k <> KIgnored e (Some (CtxItem id))) -> asked_as (API i k) (an_name i).
Lemma asked_as_name a q : asked_as a q <-> name_for_allowlist a = q.
Proof.
  split.
  - intros H. destruct H; unfold name_for_allowlist; cbn [api_kind_of]; try rewrite H; try reflexivity.
    destruct k; try reflexivity.
    + edestruct H; reflexivity.
    + destruct ctx as [[]|]; try reflexivity; [edestruct H2 | edestruct H1]; reflexivity.
    + edestruct H0; reflexivity.
  - intros <-. destruct a as [i k]. unfold name_for_allowlist; cbn [api_kind_of].
    destruct k; try (apply ask_plain; intros; discriminate).
    + destruct (fn_kind_of f) eqn:K; [apply ask_fn | eapply ask_method | eapply ask_trait]; eassumption.
    + destruct ctx as [[]|]; try constructor; intros; discriminate.
    + constructor.
Qed.

(** The identifier an API occupies in the flat bridge module, if any: functions one chosen for
    them, constants, string constructors, overrides and ignored items none, all others the last
    segment of their name. *)
Inductive occupies : api -> string -> Prop :=
| occ_fn i f : occupies (API i (KFunction f)) (fn_bridge_name f)
| occ_other i k :
    (forall f, k <> KFunction f) -> k <> KStringConstructor -> k <> KConst ->
    (forall e c, k <> KIgnored e c) -> (forall s ds, k <> KRustSubclassFn s ds) ->
    occupies (API i k) (qn_item (an_name i)).
Lemma occupies_bridge a s : occupies a s <-> bridge_name a = Some s.
Proof.
  split.
  - intros H. destruct H; unfold bridge_name; cbn [api_kind_of]; [reflexivity|].
    destruct k; try reflexivity.
    + edestruct H0; reflexivity.
    + edestruct H; reflexivity.
    + edestruct H1; reflexivity.
    + edestruct H2; reflexivity.
    + edestruct H3; reflexivity.
  - destruct a as [i k]. unfold bridge_name; cbn [api_kind_of].
    destruct k; intros H; try discriminate H; injection H as <-; try (apply occ_other; intros; discriminate).
    constructor.
Qed.

(** Ignored, as a relation. *)
Inductive ignored : api -> Prop := ign_intro i e c : ignored (API i (KIgnored e c)).
Lemma ignored_is a : ignored a <-> is_ignored a = true.
Proof.
  split; [intros []; reflexivity|]. destruct a as [i []]; unfold is_ignored; cbn [api_kind_of];
    try discriminate. constructor.
Qed.
Lemma not_ignored_is a : ~ ignored a <-> is_ignored a = false.
Proof. rewrite ignored_is. destruct (is_ignored a); split; congruence. Qed.
