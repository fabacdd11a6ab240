(** C51, C52, C56, C68, C69: what is made of bindgen's output. *)
From Verif Require Import Base ApiModel ApiVecModel ApiVecProofs ErrorReporterModel NameCheckModel KnownTypesModel
  QNamesModel CallbacksModel ConfigModel ConfigProofs ExternFunModel ParseBindgenModel ParseBindgenSpec ParseBindgenProofs.

(** The names a configuration asks for. *)
Definition asked (cfg : config) (d : string) : Prop :=
  (exists l, cf_allowlist cfg = ASpecific l /\ In (AItem d) l) \/ In d (cf_pod_requests cfg).

Lemma asked_spec cfg d : In d (must_generate_list cfg) <-> asked cfg d.
Proof.
  unfold must_generate_list, asked. destruct (cf_allowlist cfg) as [l| |l].
  - split; [auto|intros [(l' & E & _)|H]; [discriminate E|exact H]].
  - split; [auto|intros [(l' & E & _)|H]; [discriminate E|exact H]].
  - rewrite in_app_iff. unfold items. rewrite in_flat_map. split.
    + intros [(e & I & H)|H]; [|auto]. destruct e as [s|s]; [|destruct H]. destruct H as [<-|[]]. left; eauto.
    + intros [(l' & E & I)|H]; [|auto]. injection E as <-. left. exists (AItem d). split; [exact I|left; reflexivity].
Qed.

(** An extern C++ type of the configuration has this name. *)
Definition is_extern (cfg : config) (q : qname) : Prop :=
  exists cpp e, In (cpp, e) (cf_externs cfg) /\ new_from_cpp_name cpp = q.

(** ** Replacement of external types *)

Section Externs.
Variable builtin : string -> bool.
Variable cfg : config.

Lemma qset_keys {A} k (v : A) m x : In x (map fst (qset k v m)) <-> x = k \/ In x (map fst m).
Proof.
  induction m as [|[a y] m IH]; cbn; [intuition|]. destruct (qn_eqb k a) eqn:E; cbn.
  - apply qn_eqb_eq in E; subst. intuition.
  - rewrite IH; intuition.
Qed.
Lemma qset_nodup {A} k (v : A) m : NoDup (map fst m) -> NoDup (map fst (qset k v m)).
Proof.
  induction m as [|[a y] m IH]; cbn; intros N; [repeat constructor; easy|]. apply NoDup_cons_iff in N as [N1 N2].
  destruct (qn_eqb k a) eqn:E; cbn; constructor; auto.
  - apply qn_eqb_eq in E; subst; exact N1.
  - rewrite qset_keys. apply qn_eqb_neq in E. intuition.
Qed.
Lemma qset_In {A} k (v : A) m x : In x (qset k v m) -> x = (k, v) \/ In x m.
Proof.
  induction m as [|[a y] m IH]; cbn; [intuition|]. destruct (qn_eqb k a) eqn:E; cbn; intuition.
Qed.

Definition extern_api (q : qname) : api := API (AN q None) (KExternCppType (smem (to_cpp_name q) (cf_pod_requests cfg))).

Lemma replacements_spec : NoDup (map fst (replacements cfg))
  /\ (forall q, In q (map fst (replacements cfg)) <-> is_extern cfg q)
  /\ (forall q a, In (q, a) (replacements cfg) -> a = extern_api q).
Proof.
  unfold replacements, is_extern.
  set (step := fun (m : list (qname * api)) (kv : string * extern_cpp_type) => _).
  assert (G : forall l m,
    NoDup (map fst m) -> (forall q a, In (q, a) m -> a = extern_api q) ->
    NoDup (map fst (fold_left step l m))
    /\ (forall q, In q (map fst (fold_left step l m)) <-> (exists cpp e, In (cpp, e) l /\ new_from_cpp_name cpp = q) \/ In q (map fst m))
    /\ (forall q a, In (q, a) (fold_left step l m) -> a = extern_api q)).
  { induction l as [|[k e] l IH]; intros m N V; cbn [fold_left].
    - split; [exact N|]. split; [|exact V]. intros q; split; [auto|]. intros [(c & x & [] & _)|H]; exact H.
    - destruct (IH (step m (k, e))) as (A & B & C).
      + apply qset_nodup, N.
      + intros q a H. apply qset_In in H as [H|H]; [|auto]. injection H as -> ->. reflexivity.
      + split; [exact A|]. split; [|exact C]. intros q. rewrite B. unfold step at 1; cbn [fst]. rewrite qset_keys. split.
        * intros [(c & x & I & E)|[->|H]]; [left; exists c, x; split; [right; exact I|exact E]| |auto].
          left; exists k, e; split; [left; reflexivity|reflexivity].
        * intros [(c & x & [I|I] & E)|H]; [injection I as -> ->; auto| |auto]. left; eauto. }
  destruct (G (cf_externs cfg) [] (NoDup_nil _) ltac:(intros q a [])) as (A & B & C).
  split; [exact A|]. split; [|exact C]. intros q. rewrite B. cbn. intuition.
Qed.

Lemma replaced_apis before : av_wf before ->
  av_apis (replace_extern_cpp_types builtin cfg before) =
  filter (fun a => match qget (aname a) (replacements cfg) with Some _ => false | None => true end) (av_apis before)
  ++ map snd (replacements cfg).
Proof.
  intros W. destruct replacements_spec as (N & K & V). unfold replace_extern_cpp_types.
  set (p := fun a => _). rewrite extend_nodup; [reflexivity|apply av_wf_retain, W|].
  assert (E : map aname (map snd (replacements cfg)) = map fst (replacements cfg)).
  { rewrite map_map. apply map_ext_in. intros [q a] I. cbn. rewrite (V q a I). reflexivity. }
  rewrite map_app, E. apply NoDup_app_intro; [|exact N|].
  - apply (av_wf_retain p before W).
  - intros x H I. apply in_map_iff in H as (a & <- & H). cbn [av_retain av_apis] in H. apply filter_In in H as [_ H].
    unfold p in H. destruct (qget (aname a) (replacements cfg)) eqn:Q; [discriminate H|]. apply qget_None in Q. contradiction.
Qed.

Lemma replaced_In before a : av_wf before ->
  In a (av_apis (replace_extern_cpp_types builtin cfg before)) <->
  (In a (av_apis before) /\ ~ is_extern cfg (aname a)) \/ (is_extern cfg (aname a) /\ a = extern_api (aname a)).
Proof.
  intros W. destruct replacements_spec as (N & K & V). rewrite replaced_apis by exact W. rewrite in_app_iff, filter_In.
  assert (R : In a (map snd (replacements cfg)) <-> is_extern cfg (aname a) /\ a = extern_api (aname a)).
  { rewrite in_map_iff. split.
    - intros ([q x] & <- & I). cbn. assert (E := V q x I). split.
      + apply K. apply in_map_iff. exists (q, x). split; [rewrite E; reflexivity|exact I].
      + rewrite E at 1. rewrite E. reflexivity.
    - intros [X E]. apply K in X. apply in_map_iff in X as ([q x] & E1 & I). cbn in E1.
      exists (q, x). split; [|exact I]. cbn. rewrite (V q x I), E, E1. reflexivity. }
  rewrite R, <- K. destruct (qget (aname a) (replacements cfg)) as [v|] eqn:Q.
  - apply qget_In in Q. apply (in_map fst) in Q. cbn in Q. intuition discriminate.
  - apply qget_None in Q. intuition.
Qed.
End Externs.

(** C56: for every extern type there is exactly one API with its name after
    parsing, and it is the external type, plain data if and only if that was
    asked for. *)
Theorem c56_exactly_one :
  forall builtin lexes reserved cb cfg hash fun_deps items apis,
    parse_items builtin lexes reserved cb cfg hash fun_deps items = ODone apis ->
    forall cpp e, In (cpp, e) (cf_externs cfg) ->
      let q := new_from_cpp_name cpp in
      exists pod, filter (fun a => qn_eqb (aname a) q) (av_apis apis) = [API (AN q None) (KExternCppType pod)]
        /\ (pod = true <-> In (to_cpp_name q) (cf_pod_requests cfg)).
Proof.
  intros builtin lexes reserved cb cfg hash fun_deps items apis H cpp e I q.
  apply items_ok in H as (root & before & P & _ & EB & _ & _ & ->).
  assert (W : av_wf before) by (rewrite EB; apply av_wf_extend, av_wf_new).
  destruct (replacements_spec cfg) as (N & K & V).
  assert (X : is_extern cfg q) by (exists cpp, e; auto).
  exists (smem (to_cpp_name q) (cf_pod_requests cfg)). split.
  2: { unfold smem. rewrite existsb_exists. split; [intros (x & J & Y); apply String.eqb_eq in Y; subst; exact J|].
       intros J; eexists; split; [exact J|apply String.eqb_refl]. }
  assert (WF : NoDup (map aname (av_apis (replace_extern_cpp_types builtin cfg before)))).
  { unfold replace_extern_cpp_types. apply av_wf_extend, av_wf_retain, W. }
  assert (M : In (extern_api cfg q) (av_apis (replace_extern_cpp_types builtin cfg before))) by (apply replaced_In; auto).
  assert (OneOf : forall l a, NoDup (map aname l) -> In a l -> filter (fun b => qn_eqb (aname b) (aname a)) l = [a]).
  { clear. induction l as [|b l IH]; intros a N I; [destruct I|]. cbn in N. apply NoDup_cons_iff in N as [N1 N2]. cbn [filter].
    destruct I as [->|I].
    - rewrite qn_eqb_refl. f_equal. clear IH. assert (F : forall c, In c l -> aname c <> aname a).
      { intros c Ic E. apply N1. rewrite <- E. apply in_map, Ic. }
      clear N1 N2. induction l as [|c l IH]; [reflexivity|]. cbn [filter].
      destruct (qn_eqb (aname c) (aname a)) eqn:E; [apply qn_eqb_eq in E; destruct (F c (or_introl eq_refl) E)|].
      apply IH. intros d Id; apply F; right; exact Id.
    - destruct (qn_eqb (aname b) (aname a)) eqn:E; [|auto]. apply qn_eqb_eq in E. destruct N1. rewrite E. apply in_map, I. }
  exact (OneOf _ _ WF M).
Qed.
Print Assumptions c56_exactly_one.

(** C56: all other APIs stay as they were, in the same order. *)
Theorem c56_others_unchanged :
  forall builtin cfg before, av_wf before ->
    let keep a := negb (existsb (fun kv => qn_eqb (new_from_cpp_name (fst kv)) (aname a)) (cf_externs cfg)) in
    filter keep (av_apis (replace_extern_cpp_types builtin cfg before)) = filter keep (av_apis before).
Proof.
  intros builtin cfg before W keep. destruct (replacements_spec cfg) as (N & K & V).
  rewrite replaced_apis by exact W. rewrite filter_app.
  assert (KE : forall a, keep a = true <-> ~ is_extern cfg (aname a)).
  { intros a. unfold keep. rewrite negb_true_iff, <- not_true_iff_false, existsb_exists. unfold is_extern. split.
    - intros H (c & e & I & E). apply H. exists (c, e). split; [exact I|]. cbn. rewrite E. apply qn_eqb_refl.
    - intros H ([c e] & I & E). apply H. exists c, e. split; [exact I|]. apply qn_eqb_eq in E. exact E. }
  assert (E2 : filter keep (map snd (replacements cfg)) = []).
  { assert (F : forall a, In a (map snd (replacements cfg)) -> keep a = false).
    { intros a H. apply in_map_iff in H as ([q x] & <- & I). cbn. apply not_true_iff_false. rewrite KE.
      intros X; apply X. rewrite (V q x I). cbn. apply K. apply (in_map fst) in I. exact I. }
    induction (map snd (replacements cfg)) as [|a l IH]; [reflexivity|]. cbn [filter].
    rewrite (F a (or_introl eq_refl)). apply IH. intros b H; apply F; right; exact H. }
  rewrite E2, app_nil_r. clear E2. induction (av_apis before) as [|a l IH]; [reflexivity|]. cbn [filter].
  destruct (qget (aname a) (replacements cfg)) as [v|] eqn:Q.
  - rewrite IH. assert (keep a = false) as ->; [|reflexivity].
    apply not_true_iff_false. rewrite KE. intros X; apply X. apply K. apply qget_In in Q. apply (in_map fst) in Q. exact Q.
  - cbn [filter]. rewrite IH. reflexivity.
Qed.
Print Assumptions c56_others_unchanged.

Section Parsed.
Variable builtin : string -> bool.
Variable lexes : string -> bool.
Variable reserved : string -> bool.
Variable cb : results.
Variable cfg : config.
Variable hash : config -> string.
Variable fun_deps : rust_fun -> ex (list qname).
Notation parse := (parse_items builtin lexes reserved cb cfg hash fun_deps).
Notation Yields := (yields builtin lexes reserved cb cfg).
Notation Config := (from_config cfg hash fun_deps).

(** The items of the module called root. *)
Definition root_of (items : list item) : list item :=
  match find_items_in_root items with Some (Some l) => l | _ => [] end.
Lemma root_of_spec items root : find_items_in_root items = Some root ->
  root_of items = match root with Some l => l | None => [] end.
Proof. unfold root_of. intros ->. destruct root; reflexivity. Qed.

(** The item [it], in namespace [ns] among [sib], is somewhere in bindgen's output. *)
Definition occurs (items : list item) := within [] (root_of items).

Lemma extend_new_entry P a : In a (av_apis (av_extend builtin av_new P)) ->
  In a P \/ (a = duplicate_marker builtin (aname a) /\ In (aname a) (map aname P)).
Proof.
  intros H. assert (E : survivor builtin (aname a) (named (aname a) P) = Some a).
  { apply from_list_entry. split; [exact H|reflexivity]. }
  unfold survivor in E. destruct (named (aname a) P) as [|b l] eqn:N; [discriminate E|].
  assert (B : In b P /\ aname b = aname a).
  { assert (I : In b (named (aname a) P)) by (rewrite N; left; reflexivity). unfold named in I. apply filter_In in I as [I X].
    apply qn_eqb_eq in X. auto. }
  destruct (forallb is_ignored l).
  - injection E as <-. left; apply B.
  - injection E as E. right. split; [congruence|]. rewrite <- (proj2 B). apply in_map, B.
Qed.

Lemma parsed_In items apis a : parse items = ODone apis -> In a (av_apis apis) ->
  (is_extern cfg (aname a) /\ exists pod, api_kind_of a = KExternCppType pod)
  \/ (~ is_extern cfg (aname a)
      /\ ((Config a \/ exists ns sib it, occurs items ns sib it /\ Yields ns sib it a)
          \/ (a = duplicate_marker builtin (aname a)
              /\ exists b, aname b = aname a /\ (Config b \/ exists ns sib it, occurs items ns sib it /\ Yields ns sib it b)))).
Proof.
  intros H I. apply items_ok in H as (root & before & P & R & EB & [A1 A2] & _ & ->).
  assert (W : av_wf before) by (rewrite EB; apply av_wf_extend, av_wf_new).
  unfold occurs. rewrite (root_of_spec _ _ R).
  apply replaced_In in I; [|exact W]. destruct I as [[I X]|[X E]]; [|left; split; [exact X|rewrite E; cbn; eauto]].
  right. split; [exact X|]. rewrite EB in I. apply extend_new_entry in I as [I|[M I]].
  - left. apply A1 in I as [I|I]; [auto|]. right; exact I.
  - right. split; [exact M|]. apply in_map_iff in I as (b & E & I). exists b. split; [exact E|].
    apply A1 in I as [I|I]; [auto|right; exact I].
Qed.

Lemma parsed_name items apis a : parse items = ODone apis ->
  Config a \/ (exists ns sib it, occurs items ns sib it /\ Yields ns sib it a) ->
  In (aname a) (map aname (av_apis apis)).
Proof.
  intros H I. apply items_ok in H as (root & before & P & R & EB & [A1 A2] & _ & ->).
  assert (W : av_wf before) by (rewrite EB; apply av_wf_extend, av_wf_new).
  unfold occurs in I. rewrite (root_of_spec _ _ R) in I.
  assert (J : In (aname a) (map aname (av_apis before))).
  { rewrite EB. apply extend_names; [apply av_wf_new|]. right. apply A2. destruct I as [I|I]; [auto|right; exact I]. }
  destruct (in_dec qname_eq_dec (aname a) (map fst (replacements cfg))) as [E|E]; rewrite (proj1 (proj2 (replacements_spec cfg))) in E.
  - assert (X : In (extern_api cfg (aname a)) (av_apis (replace_extern_cpp_types builtin cfg before))).
    { apply replaced_In; [exact W|]. right. cbn. auto. }
    apply (in_map aname) in X. exact X.
  - apply in_map_iff in J as (b & Eb & J). apply in_map_iff. exists b. split; [exact Eb|].
    apply replaced_In; [exact W|]. left. rewrite Eb. auto.
Qed.

(** ** C51 *)

Lemma unobeyed_spec before d : unobeyed cfg before = Some d ->
  asked cfg d /\ ~ exists a, In a (av_apis before) /\ to_cpp_name (aname a) = d.
Proof.
  unfold unobeyed. intros H. apply find_some in H as [I H]. apply asked_spec in I. split; [exact I|].
  intros (a & J & E). apply negb_true_iff in H. rewrite <- not_true_iff_false in H. apply H.
  unfold smem. apply existsb_exists. exists d. split; [|apply String.eqb_refl]. apply in_map_iff; eauto.
Qed.
Lemma unobeyed_none before d : unobeyed cfg before = None -> asked cfg d ->
  exists a, In a (av_apis before) /\ to_cpp_name (aname a) = d.
Proof.
  unfold unobeyed. intros H A. apply asked_spec in A. apply (find_none _ _ H) in A. apply negb_false_iff in A.
  unfold smem in A. apply existsb_exists in A as (x & I & E). apply String.eqb_eq in E; subst x.
  apply in_map_iff in I as (a & E & I). eauto.
Qed.
End Parsed.

(** C51: when parsing succeeds, every name asked for is the C++ name of an API
    in the result, and that API was made from an item of the headers or from
    the configuration. *)
Theorem c51_success_means_found :
  forall builtin lexes reserved cb cfg hash fun_deps items apis,
    parse_items builtin lexes reserved cb cfg hash fun_deps items = ODone apis ->
    forall d, asked cfg d ->
      exists a b, In a (av_apis apis) /\ to_cpp_name (aname a) = d /\ aname b = aname a
        /\ (from_config cfg hash fun_deps b
            \/ exists ns sib it, occurs items ns sib it /\ yields builtin lexes reserved cb cfg ns sib it b).
Proof.
  intros builtin lexes reserved cb cfg hash fun_deps items apis H d A. assert (H' := H).
  apply items_ok in H' as (root & before & P & R & EB & [A1 A2] & U & EA).
  destruct (unobeyed_none cfg before d U A) as (a & I & E).
  assert (J : In (aname a) (map aname P)).
  { rewrite EB in I. apply (in_map aname) in I. apply extend_names in I; [|apply av_wf_new]. destruct I as [[]|I]; exact I. }
  apply in_map_iff in J as (b & Eb & J). apply A1 in J.
  assert (S : from_config cfg hash fun_deps b
            \/ exists ns sib it, occurs items ns sib it /\ yields builtin lexes reserved cb cfg ns sib it b).
  { unfold occurs. rewrite (root_of_spec _ _ R). destruct J as [J|J]; [auto|right; exact J]. }
  assert (K := parsed_name builtin lexes reserved cb cfg hash fun_deps items apis b H S).
  rewrite Eb in K. apply in_map_iff in K as (c & Ec & K). exists c, b. rewrite Ec. auto.
Qed.
Print Assumptions c51_success_means_found.

(** C51: the error names something which was asked for and for which there
    is nothing in the headers or the configuration. *)
Theorem c51_failure_names_the_directive :
  forall builtin lexes reserved cb cfg hash fun_deps items d,
    parse_items builtin lexes reserved cb cfg hash fun_deps items = OFail (PEDidNotGenerateAnything d) ->
    asked cfg d
    /\ (forall b, from_config cfg hash fun_deps b -> to_cpp_name (aname b) <> d)
    /\ (forall ns sib it b, occurs items ns sib it -> yields builtin lexes reserved cb cfg ns sib it b -> to_cpp_name (aname b) <> d).
Proof.
  intros builtin lexes reserved cb cfg hash fun_deps items d. unfold parse_items.
  destruct (find_items_in_root items) as [root|] eqn:R; [|discriminate].
  destruct (add_apis_from_config _ _ _ _) as [a1|e|] eqn:E; [| |discriminate].
  2: { intros H; injection H as ->. exfalso. unfold add_apis_from_config in E.
       destruct (add_rust_funs _ _ _ _) as [x|e|] eqn:F; [discriminate E| |discriminate E]. injection E as ->.
       revert F. generalize (av_extend builtin (if cf_exclude_utilities cfg then av_new else generate_utilities builtin cfg hash av_new)
         (map (fun s => API (AN (QN [] (sc_subclass s)) None) (KSubclass (new_from_cpp_name (sc_superclass s)))) (cf_subclasses cfg))).
       induction (cf_extern_rust_funs cfg) as [|f l IH]; intros v; cbn; [discriminate|].
       destruct (fun_deps f); [apply IH|discriminate|discriminate]. }
  destruct (parse_mod_items _ _ _ _ _ _ _ a1) as [a2|] eqn:M; [|discriminate].
  destruct (unobeyed cfg a2) as [d'|] eqn:U; [|discriminate]. intros H; injection H as ->.
  apply (config_ok builtin lexes reserved) in E as (P1 & -> & C). apply (mod_items_ok builtin lexes reserved cb cfg hash) in M as (P2 & -> & [A1 A2]).
  apply unobeyed_spec in U as [A N]. split; [exact A|].
  assert (X : forall b, In (aname b) (map aname (P1 ++ P2)) -> to_cpp_name (aname b) <> d).
  { intros b I Eb. apply N. rewrite <- extend_app.
    assert (J : In (aname b) (map aname (av_apis (av_extend builtin av_new (P1 ++ P2))))).
    { apply extend_names; [apply av_wf_new|]. auto. }
    apply in_map_iff in J as (c & Ec & J). exists c. rewrite Ec. auto. }
  split.
  - intros b F. apply X. rewrite map_app, in_app_iff. left. apply in_map, C, F.
  - intros ns sib it b O Y. apply X. rewrite map_app, in_app_iff. right. apply A2.
    unfold occurs in O. rewrite (root_of_spec _ _ R) in O. exists ns, sib, it. auto.
Qed.
Print Assumptions c51_failure_names_the_directive.

(** ** C52 *)

(** No struct, forward declaration or enumeration with a blocked name is left
    after parsing. Missing: other kinds of item, and C++ names of nested types,
    see the refutations below; what uses a blocked type is dealt with in later
    passes. *)
Theorem c52_blocked_types_dropped_partial :
  forall builtin lexes reserved cb cfg hash fun_deps items apis,
    parse_items builtin lexes reserved cb cfg hash fun_deps items = ODone apis ->
    forall a, In a (av_apis apis) ->
      match api_kind_of a with KStruct _ | KForwardDeclaration _ | KEnum => True | _ => False end ->
      ~ In (to_cpp_name (aname a)) (cf_blocklist cfg).
Proof.
  intros builtin lexes reserved cb cfg hash fun_deps items apis H a I K B.
  apply (parsed_In _ _ _ _ _ _ _ _ _ _ H) in I as [(_ & pod & E)|(_ & [[C|(ns & sib & it & _ & Y)]|(M & _)])].
  - rewrite E in K. exact K.
  - destruct C as [(_ & ->)|[(s & _ & ->)|[(f & ds & _ & _ & ->)|[(p & _ & ->)|(k & _ & ->)]]]]; exact K.
  - destruct Y as [Y|[Y|[Y|(id & r & _ & _ & o & _ & ->)]]]; [| | |exact K].
    + inversion Y as [id fs x V Val NP NB NF Na|id fs e x V Val NP NB F Fe Na|id x Val NB Na| | |]; subst;
        try (destruct Na as (o & _ & ->); exact (NB B)); destruct H1 as (o & _ & ->) || destruct H2 as (o & _ & ->) || destruct H3 as (o & _ & ->) || destruct H0 as (o & _ & ->); exact K.
    + inversion Y; subst; match goal with X : error_api _ _ _ _ _ |- _ => rewrite X in K; exact K end.
    + inversion Y; subst; match goal with X : error_api _ _ _ _ _ |- _ => rewrite X in K; exact K end.
  - rewrite M in K. exact K.
Qed.
Print Assumptions c52_blocked_types_dropped_partial.

(** A concrete setting for examples. *)
Definition ex_parse (es : list event) (cfg : config) (items : list item) : outcome apivec :=
  parse_items (fun _ => false) (fun _ => true) (fun _ => false) (run_events (EvMod 0 "root" None :: es)) cfg
    (fun _ => "0x1") (fun _ => XOk []) [IMod "root" items].
Definition ex_config (allow : list string) (block : list string) (ext : list string) : config :=
  set_exclude_utilities true (set_externs (fun _ => map (fun s => (s, ExtTy "crate::X" false)) ext)
    (set_blocklist (fun _ => block) (set_allowlist (ASpecific (map AItem allow)) default_config))).

(** C52: a blocked name of a typedef, a constant or a function is not dropped. *)
Theorem c52_other_kinds_refuted :
  exists items v, ex_parse [] (ex_config [] ["a::T"; "a::C"; "a::f"] []) items = ODone v
    /\ (exists x, In x (av_apis v) /\ aname x = QN ["a"] "T" /\ api_kind_of x = KTypedef None [])
    /\ (exists x, In x (av_apis v) /\ aname x = QN ["a"] "C" /\ api_kind_of x = KConst)
    /\ (exists x f, In x (av_apis v) /\ aname x = QN ["a"] "f" /\ api_kind_of x = KFunction f).
Proof.
  exists [IMod "a" [IType "T"; IConst "C" None; IForeignMod [FIFn "f_bindgen_original"]]]. eexists.
  split; [vm_compute; reflexivity|]. split; [|split].
  - eexists; split; [left; reflexivity|split; reflexivity].
  - eexists; split; [right; left; reflexivity|split; reflexivity].
  - do 2 eexists; split; [right; right; left; reflexivity|split; reflexivity].
Qed.
Print Assumptions c52_other_kinds_refuted.

(** C52: the C++ name of a class inside a class is not recognised, since
    bindgen's name for it is compared. *)
Theorem c52_nested_refuted :
  exists items v, ex_parse [EvItem 1 "Outer_Inner"; EvCppName 1 (Some "Outer::Inner") (Some 0)] (ex_config [] ["Outer::Inner"] []) items = ODone v
    /\ exists x, In x (av_apis v) /\ api_info x = AN (QN [] "Outer_Inner") (Some "Outer::Inner")
         /\ api_kind_of x = KStruct unanalyzed_struct.
Proof.
  exists [IStruct "Outer_Inner" []]. eexists. split; [vm_compute; reflexivity|].
  eexists; split; [left; reflexivity|split; reflexivity].
Qed.
Print Assumptions c52_nested_refuted.

(** C51: likewise, asking for a class inside a class by its C++ name fails
    although it is there. *)
Theorem c51_nested_refuted :
  exists items, In (IStruct "Outer_Inner" []) items
    /\ ex_parse [EvItem 1 "Outer_Inner"; EvCppName 1 (Some "Outer::Inner") (Some 0)] (ex_config ["Outer::Inner"] [] []) items
       = OFail (PEDidNotGenerateAnything "Outer::Inner").
Proof. exists [IStruct "Outer_Inner" []]. split; [left; reflexivity|vm_compute; reflexivity]. Qed.
Print Assumptions c51_nested_refuted.

(** C51: something which cannot be generated satisfies a directive too: only
    an error marker remains of it, and parsing succeeds. *)
Theorem c51_ignored_item_counts_refuted :
  exists items v, ex_parse [] (ex_config ["counter"] [] []) items = ODone v
    /\ forall a, In a (av_apis v) -> to_cpp_name (aname a) = "counter" -> is_ignored a = true.
Proof.
  exists [IForeignMod [FIStatic "counter"]]. eexists. split; [vm_compute; reflexivity|].
  intros a [<-|[]] _. reflexivity.
Qed.
Print Assumptions c51_ignored_item_counts_refuted.

(** C51: a namespace which does not exist may be asked for without error. *)
Theorem c51_namespace_unchecked_refuted :
  exists ns, ex_parse [] (set_allowlist (ASpecific [ANamespace ns]) (ex_config [] [] [])) [] = ODone av_new.
Proof. exists "no_such_namespace". vm_compute; reflexivity. Qed.
Print Assumptions c51_namespace_unchecked_refuted.

(** ** C68 *)

Definition opt_string_dec (a b : option string) : {a = b} + {a <> b}.
Proof. decide equality; apply string_dec. Defined.

Section Lookup.
Variable cb : results.
Hypothesis root : rs_root cb <> None.
Lemma lookup_ok q : exists o, get_original_name cb q = Ok o.
Proof. unfold get_original_name, fact, id_by_name. destruct (rs_root cb); [|congruence]. destruct (match mod_id _ _ _ with Some _ => _ | None => _ end); eauto. Qed.
Lemma vis_ok q : exists o, get_cpp_visibility cb q = Ok o.
Proof.
  unfold get_cpp_visibility, fact, id_by_name. destruct (rs_root cb); [|congruence].
  destruct (match mod_id _ _ _ with Some _ => _ | None => _ end); [destruct (nget _ _)|]; eauto.
Qed.
Lemma discards_ok q : exists o, discards_template_param cb q = Ok o.
Proof.
  unfold discards_template_param, fact, id_by_name. destruct (rs_root cb); [|congruence].
  destruct (match mod_id _ _ _ with Some _ => _ | None => _ end); [destruct (nget _ _)|]; eauto.
Qed.
End Lookup.

(** Every type, constant, alias and function which bindgen wrote is
    represented by an API of its qualified name, possibly an ignored one,
    unless it is provided by autocxx or by a Rust type, is blocked, or is one of
    bindgen's own tables; if its name is not usable the error is recorded under
    that name. *)
Theorem c68_every_item_represented :
  forall builtin lexes reserved cb cfg hash fun_deps items apis,
    parse_items builtin lexes reserved cb cfg hash fun_deps items = ODone apis -> rs_root cb <> None ->
    let has ns id := In (QN ns id) (map aname (av_apis apis)) in
    let reported ns id := has ns (if builtin id then id +++ "_autocxx_error" else id) in
    forall ns sib it, occurs items ns sib it ->
      match it with
      | IStruct id _ =>
          (valid lexes reserved id /\ has ns id) \/ (exists e, invalid lexes reserved id e /\ reported ns id)
          \/ ends_with "__bindgen_vtable" id = true \/ provided cfg ns id \/ blocked cfg ns id \/ lexes id = false
      | IEnum id =>
          (valid lexes reserved id /\ has ns id) \/ (exists e, invalid lexes reserved id e /\ reported ns id)
          \/ blocked cfg ns id \/ lexes id = false
      | IUse segs (URename old new) =>
          forall rest, segs = "self" :: "super" :: rest ->
            new = "bindgen_cchar16_t" \/ has ns new \/ reported ns new \/ from_type_path (rest ++ [old]) = None
      | IConst id ty => has ns id \/ exists t, ty = Some t /\ ~ valid lexes reserved t
      | IType id => has ns id
      | IForeignMod l =>
          forall i, In i l ->
            match i with
            | FIFn x => has ns (strip_bindgen_original_suffix x)
            | FIStatic x => reported ns x
            | FIOther => True
            end
      | _ => True
      end.
Proof.
  intros builtin lexes reserved cb cfg hash fun_deps items apis H RT has reported ns sib it O.
  assert (G : forall a, yields builtin lexes reserved cb cfg ns sib it a -> has (qn_ns (aname a)) (qn_item (aname a))).
  { intros a Y. unfold has. replace (QN _ _) with (aname a) by (destruct (aname a); reflexivity).
    eapply parsed_name; [exact H|]. right. exists ns, sib, it. auto. }
  assert (ER : forall id e a, error_api builtin ns id e a -> yields builtin lexes reserved cb cfg ns sib it a -> reported ns id).
  { intros id e a -> Y. apply G in Y. cbn in Y. unfold reported, ctx_for_item in *. destruct (builtin id); exact Y. }
  assert (NA : forall id k, exists a, named_api cb ns id k a /\ aname a = QN ns id).
  { intros id k. destruct (lookup_ok cb RT (QN ns id)) as [o E]. eexists. split; [exists o; split; [exact E|reflexivity]|reflexivity]. }
  assert (EA : forall id e, exists a, error_api builtin ns id e a) by (intros id e; eexists; reflexivity).
  destruct it as [l|id fields|id|st fns|id l|id|segs tail|id ty|id|]; auto.
  - intros i I. destruct i as [x|x|]; [| |exact Logic.I].
    + set (id := strip_bindgen_original_suffix x).
      assert (RO : exists r, receiver_ok ns sib id r).
      { assert (HM : forall l, (exists b ty, In b l /\ has_method b ty id) \/ (forall b ty, In b l -> ~ has_method b ty id)).
        { intros m; induction m as [|b m IH] using rev_ind; [right; intros b ty J; destruct J|].
          destruct IH as [(c & ty & J & M)|N]; [left; exists c, ty; rewrite in_app_iff; auto|].
          assert (D : (exists ty, has_method b ty id) \/ (forall ty, ~ has_method b ty id)).
          { destruct b as [| | |st fns| | | | | |]; try (right; intros ty (f & g & E & _); discriminate E).
            destruct st as [ty|]; [|right; intros ty (f & g & E & _); discriminate E].
            destruct (in_dec string_dec id (map (fun f => strip_bindgen_original_suffix (match snd f with Some c => c | None => fst f end)) fns)) as [J|J].
            - left. apply in_map_iff in J as (f & E & J). exists ty, fns, f. auto.
            - right. intros t (f & g & E & Ig & Eg). injection E as <- <-. apply J. apply in_map_iff. eauto. }
          destruct D as [(ty & M)|D]; [left; exists b, ty; rewrite in_app_iff; split; [right; left; reflexivity|exact M]|].
          right. intros c ty J. apply in_app_iff in J as [J|[<-|[]]]; auto. }
        destruct (HM sib) as [(b & ty & J & M)|N]; [exists (Some (QN ns ty)), b, ty; auto|exists None; exact N]. }
      destruct RO as [r RO]. destruct (NA id (KFunction (unanalyzed_fn id r))) as (a & Na & En).
      replace (has ns id) with (has (qn_ns (aname a)) (qn_item (aname a))) by (rewrite En; reflexivity).
      apply G. right; right; right. exists id, r. split; [exists l, x; auto|]. auto.
    + destruct (EA x EStaticData) as [a Ea]. apply (ER x EStaticData a Ea). right; right; left. econstructor; eassumption.
  - destruct (ends_with "__bindgen_vtable" id) eqn:V; [auto|].
    destruct (validate_ident_ok_for_cxx lexes reserved id) as [|e|] eqn:Val.
    + assert (DP : provided cfg ns id \/ ~ provided cfg ns id).
      { unfold provided. destruct (is_known_substitute_type (QN ns id)); [auto|]. destruct (is_known_type (QN ns id)); [auto|].
        destruct ns as [|n ns]; [destruct (is_rust_type cfg id); [auto|]|]; right; intros [X|[X|[X Y]]]; discriminate. }
      destruct DP as [DP|DP]; [auto|].
      destruct (in_dec string_dec (to_cpp_name (QN ns id)) (cf_blocklist cfg)) as [B|B]; [do 4 right; left; exact B|].
      left. split; [exact Val|].
      assert (DF : forward cb ns id fields \/ ~ forward cb ns id fields).
      { unfold forward, has_field, fatal.
        destruct (in_dec opt_string_dec (Some "_unused") (map f_ident fields)) as [U|U]; [auto|].
        destruct (in_dec opt_string_dec (Some "_address") (map f_ident fields)) as [A|A].
        2: { right; intros [X|[X _]]; auto. }
        destruct (discards_ok cb RT (QN ns id)) as [d Ed]. destruct (vis_ok cb RT (QN ns id)) as [v Ev].
        destruct d; [auto|]. destruct v.
        - right. intros [X|[_ [X|(v & E & N)]]]; [auto|congruence|congruence].
        - left; right; split; [exact A|right; exists CbProtected; split; [exact Ev|discriminate]].
        - left; right; split; [exact A|right; exists CbPrivate; split; [exact Ev|discriminate]]. }
      destruct DF as [F|F].
      * destruct (NA id (KForwardDeclaration (Some (EOther "", None)))) as (a & Na & En).
        replace (has ns id) with (has (qn_ns (aname a)) (qn_item (aname a))) by (rewrite En; reflexivity).
        apply G. left. eapply d_forward; try eassumption. discriminate.
      * destruct (NA id (KStruct unanalyzed_struct)) as (a & Na & En).
        replace (has ns id) with (has (qn_ns (aname a)) (qn_item (aname a))) by (rewrite En; reflexivity).
        apply G. left. eapply d_struct; eassumption.
    + right; left. exists e. split; [exact Val|]. destruct (EA id e) as [a Ea]. apply (ER id e a Ea). right; left. econstructor; eassumption.
    + do 5 right. unfold validate_ident_ok_for_cxx in Val. destruct (lexes id); [|reflexivity]. exfalso.
      cbn in Val. repeat match type of Val with (if ?c then _ else _) = _ => destruct c; try discriminate Val end.
  - destruct (validate_ident_ok_for_cxx lexes reserved id) as [|e|] eqn:Val.
    + destruct (in_dec string_dec (to_cpp_name (QN ns id)) (cf_blocklist cfg)) as [B|B]; [do 2 right; left; exact B|].
      left. split; [exact Val|]. destruct (NA id KEnum) as (a & Na & En).
      replace (has ns id) with (has (qn_ns (aname a)) (qn_item (aname a))) by (rewrite En; reflexivity).
      apply G. left. constructor; assumption.
    + right; left. exists e. split; [exact Val|]. destruct (EA id e) as [a Ea]. apply (ER id e a Ea). right; left. econstructor; eassumption.
    + do 3 right. unfold validate_ident_ok_for_cxx in Val. destruct (lexes id); [|reflexivity]. exfalso.
      cbn in Val. repeat match type of Val with (if ?c then _ else _) = _ => destruct c; try discriminate Val end.
  - destruct tail as [x|old new|]; auto. intros rest ->.
    destruct (string_dec new "bindgen_cchar16_t") as [->|N]; [auto|]. right.
    destruct (from_type_path (rest ++ [old])) as [q|] eqn:Q; [|auto].
    destruct (qname_eq_dec q (QN ns new)) as [->|D].
    + right; left. destruct (EA new EInfinitelyRecursiveTypedef) as [a Ea]. apply (ER _ _ a Ea). right; left. constructor; assumption.
    + left. destruct (NA new (KTypedef (Some q) [])) as (a & Na & En).
      replace (has ns new) with (has (qn_ns (aname a)) (qn_item (aname a))) by (rewrite En; reflexivity).
      apply G. left. apply (d_use lexes reserved cb cfg ns rest old new q); assumption.
  - assert (V : (forall t, ty = Some t -> valid lexes reserved t) \/ exists t, ty = Some t /\ ~ valid lexes reserved t).
    { destruct ty as [t|]; [|left; discriminate]. unfold valid. destruct (validate_ident_ok_for_cxx lexes reserved t) eqn:E.
      - left; intros x X; injection X as <-; exact E.
      - right; exists t; split; [reflexivity|congruence].
      - right; exists t; split; [reflexivity|congruence]. }
    destruct V as [V|V]; [left|auto]. destruct (NA id KConst) as (a & Na & En).
    replace (has ns id) with (has (qn_ns (aname a)) (qn_item (aname a))) by (rewrite En; reflexivity).
    apply G. left. constructor; assumption.
  - destruct (NA id (KTypedef None [])) as (a & Na & En).
    replace (has ns id) with (has (qn_ns (aname a)) (qn_item (aname a))) by (rewrite En; reflexivity).
    apply G. left. constructor; assumption.
Qed.
Print Assumptions c68_every_item_represented.

(** Nothing is invented: every API has the name of an extern type, or comes
    from the configuration, or from an item in the module of its namespace, or
    marks a clash of such names. *)
Theorem c68_nothing_invented :
  forall builtin lexes reserved cb cfg hash fun_deps items apis,
    parse_items builtin lexes reserved cb cfg hash fun_deps items = ODone apis ->
    forall a, In a (av_apis apis) ->
      is_extern cfg (aname a)
      \/ exists b, aname b = aname a
          /\ (a = b \/ exists c, api_kind_of a = KIgnored EDuplicateItems c)
          /\ (from_config cfg hash fun_deps b
              \/ exists sib it, occurs items (qn_ns (aname a)) sib it
                   /\ yields builtin lexes reserved cb cfg (qn_ns (aname a)) sib it b).
Proof.
  intros builtin lexes reserved cb cfg hash fun_deps items apis H a I.
  assert (NS : forall ns sib it b, yields builtin lexes reserved cb cfg ns sib it b -> qn_ns (aname b) = ns).
  { intros ns sib it b [Y|[Y|[Y|(id & r & _ & _ & o & _ & ->)]]]; [| | |reflexivity]; inversion Y; subst;
      match goal with
      | X : named_api _ _ _ _ _ |- _ => destruct X as (o & _ & ->); reflexivity
      | X : error_api _ _ _ _ _ |- _ => rewrite X; reflexivity
      end. }
  apply (parsed_In _ _ _ _ _ _ _ _ _ _ H) in I as [(X & _)|(_ & [[C|(ns & sib & it & O & Y)]|(M & b & E & [C|(ns & sib & it & O & Y)])])].
  - auto.
  - right. exists a. auto.
  - right. exists a. split; [reflexivity|]. split; [auto|]. right. rewrite (NS _ _ _ _ Y). eauto.
  - right. exists b. split; [exact E|]. split; [right; rewrite M; cbn; eauto|auto].
  - right. exists b. split; [exact E|]. split; [right; rewrite M; cbn; eauto|]. right. rewrite <- E, (NS _ _ _ _ Y). eauto.
Qed.
Print Assumptions c68_nothing_invented.

(** ** C69 *)

(** A function of the result was declared in the module of its namespace. It
    is a method of a type exactly if an [impl] block of that same module has it. *)
Theorem c69_receivers :
  forall builtin lexes reserved cb cfg hash fun_deps items apis,
    parse_items builtin lexes reserved cb cfg hash fun_deps items = ODone apis ->
    forall a f, In a (av_apis apis) -> api_kind_of a = KFunction f ->
      exists ns sib it,
        occurs items ns sib it /\ declares_fn it (fn_ident f) /\ aname a = QN ns (fn_ident f)
        /\ match fn_kind_of f with
           | FFunction => forall b ty, In b sib -> ~ has_method b ty (fn_ident f)
           | FMethod MNormal q => exists b ty, In b sib /\ has_method b ty (fn_ident f) /\ q = QN ns ty
           | _ => False
           end.
Proof.
  intros builtin lexes reserved cb cfg hash fun_deps items apis H a f I K.
  apply (parsed_In _ _ _ _ _ _ _ _ _ _ H) in I as [(_ & pod & X)|(_ & [[C|(ns & sib & it & O & Y)]|(M & _)])].
  - congruence.
  - destruct C as [(_ & ->)|[(s & _ & ->)|[(g & ds & _ & _ & ->)|[(p & _ & ->)|(k & _ & ->)]]]]; discriminate K.
  - exists ns, sib, it. split; [exact O|].
    destruct Y as [Y|[Y|[Y|(id & r & D & R & o & _ & ->)]]].
    + exfalso. inversion Y; subst; match goal with X : named_api _ _ _ _ _ |- _ => destruct X as (o & _ & ->); discriminate K end.
    + exfalso. inversion Y; subst; match goal with X : error_api _ _ _ _ _ |- _ => rewrite X in K; discriminate K end.
    + exfalso. inversion Y; subst; match goal with X : error_api _ _ _ _ _ |- _ => rewrite X in K; discriminate K end.
    + cbn in K. injection K as <-. cbn [unanalyzed_fn fn_ident fn_kind_of]. split; [exact D|]. split; [reflexivity|].
      destruct r as [q|]; exact R.
  - rewrite M in K. discriminate K.
Qed.
Print Assumptions c69_receivers.

(** Every extern function listed in an [impl] block of its module, and which
    does not clash, is a method: the receiver is never lost. *)
Theorem c69_methods_have_receivers :
  forall builtin lexes reserved cb cfg hash fun_deps items apis,
    parse_items builtin lexes reserved cb cfg hash fun_deps items = ODone apis ->
    forall a f, In a (av_apis apis) -> api_kind_of a = KFunction f -> fn_kind_of f = FFunction ->
      exists sib, (exists it, occurs items (qn_ns (aname a)) sib it /\ declares_fn it (qn_item (aname a)))
        /\ forall b ty, In b sib -> ~ has_method b ty (qn_item (aname a)).
Proof.
  intros builtin lexes reserved cb cfg hash fun_deps items apis H a f I K F.
  destruct (c69_receivers _ _ _ _ _ _ _ _ _ H a f I K) as (ns & sib & it & O & D & E & R). rewrite F in R.
  exists sib. rewrite E. cbn [qn_ns qn_item]. split; [eauto|exact R].
Qed.
Print Assumptions c69_methods_have_receivers.

(** ** No panic *)

(** What bindgen writes: identifiers which lex; [use] items which rename start
    with [self::super] and do not end in [root] alone. *)
Inductive sane (lexes : string -> bool) : item -> Prop :=
| sane_foreign l : sane lexes (IForeignMod l)
| sane_struct id fs : lexes id = true -> sane lexes (IStruct id fs)
| sane_enum id : lexes id = true -> sane lexes (IEnum id)
| sane_impl t l : sane lexes (IImpl t l)
| sane_mod id l : Forall (sane lexes) l -> sane lexes (IMod id l)
| sane_decl id : sane lexes (IModDecl id)
| sane_use_rename segs old new : (segs ++ [old] <> ["root"]) -> (segs ++ [old] <> ["output"]) ->
    sane lexes (IUse ("self" :: "super" :: segs) (URename old new))
| sane_use_other segs t : (forall old new, t <> URename old new) -> sane lexes (IUse segs t)
| sane_const id ty : (forall t, ty = Some t -> lexes t = true) -> sane lexes (IConst id ty)
| sane_type id : sane lexes (IType id)
| sane_other : sane lexes IOther.

Lemma validate_no_panic lexes reserved id : lexes id = true -> validate_ident_ok_for_cxx lexes reserved id <> VPanic.
Proof.
  unfold validate_ident_ok_for_cxx. intros ->. cbn [negb].
  repeat match goal with |- context [if ?c then _ else _] => destruct c; try discriminate end.
Qed.

Lemma from_segments_some l x : exists q, from_segments (l ++ [x]) = Some q.
Proof.
  unfold from_segments. assert (G : forall ns, exists q, from_segments_aux ns (l ++ [x]) = Some q); [|apply G].
  induction l as [|y l IH]; intros ns; [eexists; reflexivity|]. cbn [app from_segments_aux].
  destruct (l ++ [x]) eqn:E; [destruct l; discriminate E|]. apply IH.
Qed.

Lemma from_type_path_some l x : l ++ [x] <> ["root"] -> l ++ [x] <> ["output"] -> exists q, from_type_path (l ++ [x]) = Some q.
Proof.
  intros A B. unfold from_type_path. destruct l as [|y l]; cbn [app] in *.
  - destruct (String.eqb_spec x "root") as [->|]; [congruence|]. destruct (String.eqb_spec x "output") as [->|]; [congruence|]. cbn [orb]. apply (from_segments_some [] x).
  - destruct (String.eqb y "root" || String.eqb y "output"); [apply from_segments_some|apply (from_segments_some (y :: l))].
Qed.

Section NoPanic.
Variable builtin : string -> bool.
Variable lexes : string -> bool.
Variable reserved : string -> bool.
Variable cb : results.
Variable cfg : config.
Hypothesis root : rs_root cb <> None.

Lemma api_name_some ns id : exists n, ParseBindgenModel.api_name cb ns id = Some n.
Proof. unfold ParseBindgenModel.api_name. destruct (lookup_ok cb root (QN ns id)) as [o ->]. eauto. Qed.
Lemma qualified_some ns id : lexes id = true -> exists n, api_name_qualified builtin lexes reserved cb ns id = Some n.
Proof.
  intros L. unfold api_name_qualified. apply (validate_no_panic lexes reserved) in L.
  destruct (validate_ident_ok_for_cxx lexes reserved id); [|eauto|congruence]. destruct (api_name_some ns id) as [n ->]. eauto.
Qed.
Lemma fatal_some n : exists r, fatal_attrs builtin cb n = Some r.
Proof.
  unfold fatal_attrs. destruct (discards_ok cb root n) as [d ->]. destruct d; [eauto|].
  destruct (vis_ok cb root n) as [v ->]. destruct v; eauto.
Qed.
Lemma foreign_some ns l : forall fs ex, exists r, parse_foreign_items builtin cb ns l fs ex = Some r.
Proof.
  induction l as [|i l IH]; intros fs ex; cbn [parse_foreign_items]; [eauto|].
  destruct i as [x|x|]; cbn [parse_foreign_item]; [|apply IH|apply IH].
  destruct (lookup_ok cb root (QN ns (strip_bindgen_original_suffix x))) as [o ->]. apply IH.
Qed.

Lemma leaf_some it ns apis cv : sane lexes it -> exists r, parse_leaf builtin lexes reserved cb cfg it ns apis cv = Some r.
Proof.
  intros S. inversion S as [l|id fs L|id L|t l|id l F|id|segs old new N1 N2|segs t N|id ty L|id|]; subst; cbn [parse_leaf]; eauto.
  - unfold convert_foreign_mod_items. destruct (foreign_some ns l (cv_funcs cv) av_new) as [[f e] ->]. eauto.
  - unfold parse_struct. destruct (ends_with _ id); [eauto|]. destruct (qualified_some ns id L) as [[n|e] ->]; [|eauto].
    destruct (is_known_substitute_type (an_name n)); [eauto|]. destruct (fatal_some (an_name n)) as [e ->].
    match goal with |- context [match ?x with Some a => Some (_, Ok tt) | None => Some (apis, Ok tt) end] => destruct x end; eauto.
  - destruct (qualified_some ns id L) as [[n|e] ->]; eauto.
  - unfold parse_use. destruct (String.eqb new "bindgen_cchar16_t"); [eauto|]. cbn [String.eqb Ascii.eqb Bool.eqb andb].
    destruct (from_type_path_some segs old N1 N2) as [q ->]. destruct (qn_eqb _ q); [eauto|].
    destruct (api_name_some ns new) as [n ->]. eauto.
  - unfold parse_use. destruct t; [eauto|destruct (N _ _ eq_refl)|eauto].
  - assert (V : match ty with Some t => validate_ident_ok_for_cxx lexes reserved t | None => VOk end <> VPanic).
    { destruct ty as [t|]; [apply validate_no_panic, L; reflexivity|discriminate]. }
    destruct (match ty with Some t => _ | None => _ end); [|eauto|congruence]. destruct (api_name_some ns id) as [n ->]. eauto.
  - destruct (api_name_some ns id) as [n ->]. eauto.
Qed.

Lemma item_some it : sane lexes it -> forall ns apis cv, exists r, parse_item builtin lexes reserved cb cfg it ns apis cv = Some r.
Proof.
  induction it as [it L|id l IH] using item_ind'; intros S ns apis cv.
  - destruct (leaf_some it ns apis cv S) as [r E]. exists r. rewrite <- E. destruct it; try reflexivity. destruct (L _ _ eq_refl).
  - inversion S as [| | | |? ? F| | | | | |]; subst. rewrite p_item_mod.
    assert (G : forall apis cv more, exists r, parse_loop builtin lexes reserved cb cfg (ns ++ [id]) l apis cv more = Some r).
    { clear S apis cv. induction l as [|i l IHl]; intros apis cv more; cbn [parse_loop]; [eauto|].
      inversion IH; subst. inversion F; subst. destruct (H1 H3 (ns ++ [id]) apis cv) as [[[a c] r] ->]. apply IHl; assumption. }
    destruct (G apis conv_new av_new) as [[[a c] m] ->]. eauto.
Qed.
End NoPanic.

(** C68: parsing what bindgen writes never panics, provided that bindgen
    reported its root module and that the dependencies of the Rust functions of
    the configuration can be found without panic. *)
Theorem c68_no_panic :
  forall builtin lexes reserved cb cfg hash fun_deps items,
    rs_root cb <> None -> (forall f, In f (cf_extern_rust_funs cfg) -> fun_deps f <> XPanic) ->
    (forall id l, In (IMod id l) items -> id = "root") -> (forall id, In (IModDecl id) items -> id = "root") ->
    Forall (sane lexes) items ->
    parse_items builtin lexes reserved cb cfg hash fun_deps items <> OPanic.
Proof.
  intros builtin lexes reserved cb cfg hash fun_deps items R FD M1 M2 S. unfold parse_items.
  assert (FR : exists r, find_items_in_root items = Some r /\ forall l, r = Some l -> Forall (sane lexes) l).
  { clear - M1 M2 S. induction S as [|i l Si S IH]; [exists None; split; [reflexivity|discriminate]|].
    assert (IH' := IH ltac:(intros; eapply M1; right; eassumption) ltac:(intros; eapply M2; right; eassumption)).
    destruct i as [| | | |id sub|id| | | |]; try exact IH'; cbn [find_items_in_root].
    - rewrite (M1 id sub (or_introl eq_refl)). exists (Some sub). split; [reflexivity|]. intros x X; injection X as <-.
      inversion Si; assumption.
    - rewrite (M2 id (or_introl eq_refl)). exact IH'. }
  destruct FR as (r & -> & SR).
  destruct (add_apis_from_config _ _ _ _) as [a1|e|] eqn:E; [|discriminate|].
  - assert (G : forall l, Forall (sane lexes) l -> forall ns apis cv more, exists r, parse_loop builtin lexes reserved cb cfg ns l apis cv more = Some r).
    { induction 1 as [|i l Si _ IH]; intros ns apis cv more; cbn [parse_loop]; [eauto|].
      destruct (item_some builtin lexes reserved cb cfg R i Si ns apis cv) as [[[a c] x] ->]. apply IH. }
    unfold parse_mod_items.
    destruct (G (match r with Some l => l | None => [] end) ltac:(destruct r as [l|]; [apply SR; reflexivity|constructor]) [] a1 conv_new av_new)
      as [[[a c] m] ->].
    destruct (unobeyed cfg _); discriminate.
  - exfalso. unfold add_apis_from_config in E.
    destruct (add_rust_funs _ _ _ _) as [x|x|] eqn:F; [discriminate E|discriminate E|].
    revert F FD. generalize (av_extend builtin (if cf_exclude_utilities cfg then av_new else generate_utilities builtin cfg hash av_new)
         (map (fun s => API (AN (QN [] (sc_subclass s)) None) (KSubclass (new_from_cpp_name (sc_superclass s)))) (cf_subclasses cfg))).
    induction (cf_extern_rust_funs cfg) as [|f l IH]; intros v; cbn; [discriminate|]. intros F FD.
    destruct (fun_deps f) eqn:D; [|discriminate F|destruct (FD f (or_introl eq_refl) D)].
    eapply IH; [exact F|]. intros g I; apply FD; right; exact I.
Qed.
Print Assumptions c68_no_panic.

Example parse_case :
  let items := [IStruct "A" []; IForeignMod [FIFn "A_get_bindgen_original"; FIFn "free_bindgen_original"; FIStatic "g"];
                IImpl (Some "A") [("get", Some "A_get_bindgen_original")];
                IMod "n" [IEnum "E"; IStruct "B__C" []; IStruct "Ext" []; IStruct "Blocked" [];
                          IUse ["self"; "super"; "root"] (URename "A" "Alias")]] in
  Forall (sane (fun _ => true)) [IMod "root" items]
  /\ exists v, ex_parse [] (ex_config ["A"; "n::E"] ["n::Blocked"] ["n::Ext"]) items = ODone v
       /\ map aname (av_apis v) = [QN [] "A"; QN ["n"] "E"; QN ["n"] "Alias"; QN ["n"] "B__C"; QN [] "g"; QN [] "A_get"; QN [] "free"; QN ["n"] "Ext"]
       /\ ex_parse [] (ex_config ["A"; "n::F"] [] []) items = OFail (PEDidNotGenerateAnything "n::F").
Proof.
  cbv zeta. split.
  - repeat first [apply Forall_nil | apply Forall_cons | apply sane_mod | apply sane_struct; reflexivity | apply sane_enum; reflexivity
                 | apply sane_foreign | apply sane_impl | apply sane_use_rename; discriminate].
  - eexists. split; [vm_compute; reflexivity|]. split; vm_compute; reflexivity.
Qed.
