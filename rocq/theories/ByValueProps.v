(** C14, C15, C16: which types may be held by value. *)
From Coq Require Import Relations.
From Verif Require Import Base QNamesModel KnownTypesModel KnownTypesProofs KnownTypesProps ApiModel TypesModel TypesSpec
  ConcreteNamesModel TypeConverterModel ByValueModel ByValueProofs.

(** * Vocabulary *)

(** Struct [S] has a field declared with type [T], by value. Fields which are references, pointers or
    arrays are none. *)
Definition holds (apis : list pod_api) (S T : qname) : Prop :=
  exists fields o lead id args, In (PaStruct S fields) apis /\ In (o, TPath lead id args) fields /\ refers_to (TPath lead id args) T.
(** Built-in types which cannot be moved in Rust, or have no size. *)
Definition unmovable (q : qname) : Prop :=
  exists td, In td known_table /\ spelled td q /\ In (td_cpp td) ["std::string"; "std::vector"; "void"].
Definition built_in (q : qname) : Prop := exists td, In td known_table /\ spelled td q.

Definition type_names (apis : list pod_api) : list qname :=
  map pa_name (filter (fun a => match a with PaOther _ => false | _ => true end) apis).
(** Nothing is declared, or blocked, under the name of a built-in type. *)
Definition no_built_in_redeclared (bl : list string) (apis : list pod_api) : Prop :=
  forall q, built_in q -> ~ In q (map pa_name apis) /\ ~ In q (map new_from_cpp_name bl).
(** No typedef names an unmovable built-in type. *)
Definition no_unmovable_typedef (apis : list pod_api) : Prop :=
  forall n t k, In (PaTypedef n t) apis -> refers_to t k -> ~ unmovable k.

Lemma built_in_iff q : built_in q <-> exists td, kt_get q = Some td.
Proof. unfold built_in. split; intros (td & H); exists td; apply c22_lookup_is_by_spelling; exact H. Qed.

Lemma unmovable_table : forallb (fun td => Bool.eqb (negb (behavior_pod_safe (td_behavior td))) (smem (td_cpp td) ["std::string"; "std::vector"; "void"])) known_table = true.
Proof. vm_compute. reflexivity. Qed.
Lemma unmovable_iff q : unmovable q <-> exists td, kt_get q = Some td /\ behavior_pod_safe (td_behavior td) = false.
Proof.
  assert (T := unmovable_table). rewrite forallb_forall in T. unfold unmovable. split.
  - intros (td & I & S & B). exists td. split; [apply c22_lookup_is_by_spelling; auto|]. specialize (T td I). apply eqb_prop in T.
    apply smem_In in B. rewrite B in T. destruct (behavior_pod_safe _); [discriminate | reflexivity].
  - intros (td & K & B). apply c22_lookup_is_by_spelling in K as [I S]. exists td. split; [exact I|]. split; [exact S|].
    specialize (T td I). apply eqb_prop in T. rewrite B in T. apply smem_In. symmetry. exact T.
Qed.

(** * What the filled table says *)
Section Filled.
Variables (bl : list string) (apis : list pod_api) (db2 : pod_db).
Hypothesis F : filled bl apis db2.

Lemma filled_deps_hold q l d : qget q db2 = Some l -> In d (snd l) -> holds apis q d.
Proof.
  revert q l d. apply (filled_inv (fun db => forall q l d, qget q db = Some l -> In d (snd l) -> holds apis q d) _ _ _ F).
  - intros q l d H I. rewrite base_get in H. destruct (kt_get q); [injection H as <-; destruct I | discriminate].
  - intros db n P _ q l d H I. destruct (qname_eq_dec q n) as [->|N]; [rewrite qget_qset_same in H; injection H as <-; destruct I | rewrite qget_qset_other in H by exact N; eauto].
  - intros db n t o _ _ P q l d H I. destruct (qname_eq_dec q n) as [->|N]; [rewrite qget_qset_same in H; injection H as <-; destruct I | rewrite qget_qset_other in H by exact N; eauto].
  - intros db n _ P q l d H I. destruct (qname_eq_dec q n) as [->|N]; [rewrite qget_qset_same in H; injection H as <-; destruct I | rewrite qget_qset_other in H by exact N; eauto].
  - intros db n f l0 st IS G _ P q l d H I. destruct (qname_eq_dec q n) as [->|N]; [|rewrite qget_qset_other in H by exact N; eauto].
    rewrite qget_qset_same in H. injection H as <-. cbn [snd] in I. apply (get_field_types_In _ _ G) in I as (o & a & b & c & I1 & I2).
    exists f, o, a, b, c. auto.
Qed.

Lemma filled_pod q d : qget q db2 = Some (PsPod, d) -> d = [] /\ ((built_in q /\ ~ unmovable q) \/ In (PaPod q) apis).
Proof.
  revert q d. apply (filled_inv (fun db => forall q d, qget q db = Some (PsPod, d) -> d = [] /\ ((built_in q /\ ~ unmovable q) \/ In (PaPod q) apis)) _ _ _ F).
  - intros q d H. rewrite base_get in H. destruct (kt_get q) as [td|] eqn:K; [|discriminate].
    destruct (behavior_pod_safe (td_behavior td)) eqn:B; [|discriminate]. injection H as <-. split; [reflexivity|]. left. split.
    + apply built_in_iff. eauto.
    + intros U. apply unmovable_iff in U as (td' & K' & B'). congruence.
  - intros db n P _ q d H. destruct (qname_eq_dec q n) as [->|N]; [rewrite qget_qset_same in H; discriminate | rewrite qget_qset_other in H by exact N; eauto].
  - intros db n t o _ _ P q d H. destruct (qname_eq_dec q n) as [->|N]; [rewrite qget_qset_same in H; destruct o; discriminate | rewrite qget_qset_other in H by exact N; eauto].
  - intros db n I P q d H. destruct (qname_eq_dec q n) as [->|N]; [rewrite qget_qset_same in H; injection H as <-; auto | rewrite qget_qset_other in H by exact N; eauto].
  - intros db n f l0 st _ _ S P q d H. destruct (qname_eq_dec q n) as [->|N]; [rewrite qget_qset_same in H; destruct S as [-> | ->]; discriminate | rewrite qget_qset_other in H by exact N; eauto].
Qed.

Lemma filled_other q : ~ In q (type_names apis) -> qget q db2 = if qmem q (map new_from_cpp_name bl) then Some (PsUnsafe, []) else qget q base_db.
Proof.
  intros N. assert (N' : forall a, In a apis -> (match a with PaOther _ => false | _ => true end) = true -> pa_name a <> q).
  { intros a I E Q. apply N. apply in_map_iff. exists a. split; [exact Q|]. apply filter_In. auto. }
  destruct F as (db1 & H1 & H2). rewrite (ingest_structs_other _ _ _ H2 q).
  - rewrite (ingest_types_other _ _ _ H1 q); [apply blocklist_get|].
    intros a I [(t & ->)| ->]; apply (N' _ I); reflexivity.
  - intros f I. apply (N' _ I); reflexivity.
Qed.

Lemma filled_struct q f : NoDup (map pa_name apis) -> In (PaStruct q f) apis ->
  exists st l, qget q db2 = Some (st, l) /\ get_field_types f = PoOk l /\ (has_vtable f = true -> st = PsUnsafe).
Proof.
  intros ND I. destruct F as (db1 & H1 & H2). destruct (ingest_structs_get _ _ _ ND H2 q f I) as (l & pre & post & dbm & G & _ & _ & Q).
  eexists _, l. split; [exact Q|]. split; [exact G|]. intros ->. reflexivity.
Qed.

Lemma nodup_same a b : NoDup (map pa_name apis) -> In a apis -> In b apis -> pa_name a = pa_name b -> a = b.
Proof.
  clear F. induction apis as [|x r IH]; intros ND Ia Ib E; [destruct Ia|]. inversion ND as [|? ? NI ND']; subst.
  destruct Ia as [->|Ia], Ib as [->|Ib]; auto.
  - exfalso. apply NI. rewrite E. apply in_map, Ib.
  - exfalso. apply NI. rewrite <- E. apply in_map, Ia.
Qed.

Lemma filled_typedef q t : NoDup (map pa_name apis) -> In (PaTypedef q t) apis ->
  exists o, typedef_alias t = PoOk o /\ qget q db2 = Some (match o with Some q => PsAlias q | None => PsUnsafe end, []).
Proof.
  intros ND I. destruct F as (db1 & H1 & H2). destruct (ingest_types_get _ _ _ ND H1) as [T _]. destruct (T q t I) as (o & A & Q).
  exists o. split; [exact A|]. rewrite (ingest_structs_other _ _ _ H2 q); [exact Q|]. intros f X.
  assert (E := nodup_same _ _ ND I X eq_refl). discriminate.
Qed.

Lemma filled_alias_src q a d : qget q db2 = Some (PsAlias a, d) ->
  exists t k td td', In (PaTypedef q t) apis /\ refers_to t k /\ kt_get k = Some td /\ kt_get a = Some td' /\
    behavior_pod_safe (td_behavior td') = behavior_pod_safe (td_behavior td).
Proof.
  revert q a d. apply (filled_inv (fun db => forall q a d, qget q db = Some (PsAlias a, d) ->
    exists t k td td', In (PaTypedef q t) apis /\ refers_to t k /\ kt_get k = Some td /\ kt_get a = Some td' /\
      behavior_pod_safe (td_behavior td') = behavior_pod_safe (td_behavior td)) _ _ _ F).
  - intros q a d H. rewrite base_get in H. destruct (kt_get q) as [td|]; [|discriminate]. destruct (behavior_pod_safe _); discriminate.
  - intros db n P _ q a d H. destruct (qname_eq_dec q n) as [->|N]; [rewrite qget_qset_same in H; discriminate | rewrite qget_qset_other in H by exact N; eauto].
  - intros db n t o I A P q a d H. destruct (qname_eq_dec q n) as [->|N]; [|rewrite qget_qset_other in H by exact N; eauto].
    rewrite qget_qset_same in H. destruct o as [b|]; [|discriminate]. injection H as -> <-.
    apply typedef_alias_some in A as (l & i & ar & k & td & td' & _ & R & K & K' & E). exists t, k, td, td'. auto.
  - intros db n _ P q a d H. destruct (qname_eq_dec q n) as [->|N]; [rewrite qget_qset_same in H; discriminate | rewrite qget_qset_other in H by exact N; eauto].
  - intros db n f l0 st _ _ S P q a d H. destruct (qname_eq_dec q n) as [->|N]; [rewrite qget_qset_same in H; destruct S as [-> | ->]; discriminate | rewrite qget_qset_other in H by exact N; eauto].
Qed.

Lemma built_in_entry q td : no_built_in_redeclared bl apis -> kt_get q = Some td ->
  qget q db2 = Some (if behavior_pod_safe (td_behavior td) then PsPod else PsUnsafe, []).
Proof.
  intros NB K. destruct (NB q) as [N1 N2]; [apply built_in_iff; eauto|].
  rewrite filled_other.
  - apply qmem_nIn in N2. rewrite N2, base_get, K. reflexivity.
  - intros I. apply N1. unfold type_names in I. apply in_map_iff in I as (a & <- & I). apply filter_In in I as [I _]. apply in_map, I.
Qed.

Lemma filled_alias_good : no_built_in_redeclared bl apis -> no_unmovable_typedef apis -> alias_good db2.
Proof.
  intros NB NU t a d H. destruct (filled_alias_ok _ _ _ F _ _ _ H) as (-> & _). split; [reflexivity|].
  destruct (filled_alias_src _ _ _ H) as (tt & k & td & td' & I & R & K & K' & E).
  exists []. rewrite (built_in_entry _ _ NB K'). destruct (behavior_pod_safe (td_behavior td')) eqn:B; [reflexivity|].
  exfalso. apply (NU _ _ _ I R). apply unmovable_iff. exists td. split; [exact K | congruence].
Qed.
End Filled.

Lemma is_pod_iff db q : is_pod db q = true <-> pod db q.
Proof.
  unfold is_pod, pod. destruct (qget q db) as [[[| | |a] d]|]; split; intros H; try discriminate; eauto; destruct H as (d' & H); congruence.
Qed.

Lemma run_facts bl reqs apis db : new_from_apis bl reqs apis = PoOk db ->
  exists db2 fuel, filled bl apis db2 /\ satisfy fuel db2 (rev (map new_from_cpp_name reqs)) = PoOk db.
Proof. intros H. destruct (new_from_apis_cases bl reqs apis) as [E|(db2 & F & E)]; [congruence|]. rewrite H in E. eauto. Qed.

(** * C14 *)

(** Every by-value field of a POD struct is POD: one level. Arrays and references are not fields in this
    sense, and typedefs of unmovable types are left out: see the refutations below. *)
Theorem c14_fields_of_pod_are_pod_partial : forall bl reqs apis db S T,
  new_from_apis bl reqs apis = PoOk db -> NoDup (map pa_name apis) ->
  no_built_in_redeclared bl apis -> no_unmovable_typedef apis ->
  holds apis S T -> is_pod db S = true -> is_pod db T = true.
Proof.
  intros bl reqs apis db S T H ND NB NU (f & o & l & i & ar & I1 & I2 & R) P. apply is_pod_iff in P. apply is_pod_iff.
  destruct (run_facts _ _ _ _ H) as (db2 & fuel & F & E).
  assert (C0 : closed db2 (rev (map new_from_cpp_name reqs))).
  { intros s l0 G d I. destruct (filled_pod _ _ _ F _ _ G) as (-> & _). destruct I. }
  destruct (satisfy_closed _ _ _ _ E (filled_alias_good _ _ _ F NB NU) C0) as [C _].
  destruct (satisfy_mono _ _ _ _ E) as (_ & M & _).
  destruct (filled_struct _ _ _ F S f ND I1) as (st & lf & G & GF & _).
  assert (D : deps_of db S lf) by (apply M; exists st; exact G). destruct D as (st' & D). destruct P as (d & P).
  rewrite P in D. injection D as <- <-. destruct (C _ _ P T) as [Q|[]]; [|exact Q].
  apply (get_field_types_In _ _ GF). exists o, l, i, ar. auto.
Qed.
Print Assumptions c14_fields_of_pod_are_pod_partial.

(** All the way down; and nothing unmovable is ever inside. *)
Theorem c14_pod_all_the_way_down_partial : forall bl reqs apis db S T,
  new_from_apis bl reqs apis = PoOk db -> NoDup (map pa_name apis) ->
  no_built_in_redeclared bl apis -> no_unmovable_typedef apis ->
  clos_trans _ (holds apis) S T -> is_pod db S = true -> is_pod db T = true /\ ~ unmovable T.
Proof.
  intros bl reqs apis db S T H ND NB NU C P.
  assert (PT : is_pod db T = true).
  { induction C as [S T X|S M T C1 IH1 C2 IH2]; [eapply c14_fields_of_pod_are_pod_partial; eauto | auto]. }
  split; [exact PT|]. intros U. apply unmovable_iff in U as (td & K & B).
  destruct (run_facts _ _ _ _ H) as (db2 & fuel & F & E). destruct (satisfy_mono _ _ _ _ E) as (_ & _ & M & _).
  assert (G := built_in_entry _ _ _ F _ _ NB K). rewrite B in G. apply M in G. unfold is_pod in PT. rewrite G in PT. discriminate.
Qed.
Print Assumptions c14_pod_all_the_way_down_partial.

Definition outer : list pod_api :=
  [PaStruct (QN [] "In") [(Some "a", TPath ["root"] "Col" []); (Some "p", TPtr true (TPath ["root"] "Sec" []))];
   PaPod (QN [] "Col"); PaTypedef (QN [] "Num") (TPath ["std"; "os"; "raw"] "c_int" []);
   PaStruct (QN [] "Sec") [(Some "s", TPath ["root"; "std"] "string" [])];
   PaStruct (QN [] "Out") [(Some "i", TPath ["root"] "In" []); (Some "n", TPath ["root"] "Num" [])]].
Example c14_nonvacuous : exists db, new_from_apis [] ["Out"] outer = PoOk db /\
  is_pod db (QN [] "Out") = true /\ is_pod db (QN [] "In") = true /\ is_pod db (QN [] "Num") = true /\ is_pod db (QN [] "Sec") = false.
Proof. eexists. split; [vm_compute; reflexivity|]. vm_compute. auto. Qed.
Lemma built_in_dec_false l : forallb (fun q => negb (is_known_type q)) l = true -> forall q, built_in q -> ~ In q l.
Proof.
  intros H q B I. apply built_in_iff in B as (td & K). rewrite forallb_forall in H. specialize (H q I). unfold is_known_type in H. rewrite K in H. discriminate.
Qed.
Lemma outer_ok : NoDup (map pa_name outer) /\ no_built_in_redeclared [] outer /\ no_unmovable_typedef outer.
Proof.
  split; [|split].
  - repeat constructor; cbn; intuition discriminate.
  - intros q B. split; [|intros []]. revert q B. apply built_in_dec_false. vm_compute. reflexivity.
  - intros n t k I R U. assert (E : t = TPath ["std"; "os"; "raw"] "c_int" []).
    { cbn in I. destruct I as [E|[E|[E|[E|[E|[]]]]]]; try discriminate. injection E as _ <-. reflexivity. }
    subst t. apply (path_name_spec _ _ []) in R. vm_compute in R. injection R as <-.
    apply unmovable_iff in U as (td & K & B). vm_compute in K. injection K as <-. discriminate.
Qed.
Example c14_hypotheses_met : clos_trans _ (holds outer) (QN [] "Out") (QN [] "Col").
Proof.
  apply t_trans with (QN [] "In"); apply t_step.
  - do 5 eexists. split; [do 4 right; left; reflexivity|]. split; [left; reflexivity | apply path_name_spec; reflexivity].
  - do 5 eexists. split; [left; reflexivity|]. split; [left; reflexivity | apply path_name_spec; reflexivity].
Qed.

(** A struct with one field of a typedef of [std::string] is accepted as POD. *)
Definition string_typedef : list pod_api :=
  [PaTypedef (QN [] "MyStr") (TPath ["root"; "std"] "string" []);
   PaStruct (QN [] "Box") [(Some "s", TPath ["root"] "MyStr" [])]].
Theorem c14_typedef_refuted : exists apis db, NoDup (map pa_name apis) /\ no_built_in_redeclared [] apis /\
  new_from_apis [] ["Box"] apis = PoOk db /\ is_pod db (QN [] "Box") = true /\
  holds apis (QN [] "Box") (QN [] "MyStr") /\ is_pod db (QN [] "MyStr") = false /\
  (exists t, In (PaTypedef (QN [] "MyStr") t) apis /\ refers_to t (QN ["std"] "string")) /\ unmovable (QN ["std"] "string").
Proof.
  exists string_typedef. eexists. split; [repeat constructor; cbn; intuition discriminate|]. split.
  { intros q B. split; [|intros []]. revert q B. apply built_in_dec_false. vm_compute. reflexivity. }
  split; [vm_compute; reflexivity|]. split; [vm_compute; reflexivity|]. split.
  { do 5 eexists. split; [right; left; reflexivity|]. split; [left; reflexivity|]. apply path_name_spec. reflexivity. }
  split; [vm_compute; reflexivity|]. split.
  { eexists. split; [left; reflexivity|]. apply path_name_spec. reflexivity. }
  apply unmovable_iff. eexists. split; vm_compute; reflexivity.
Qed.
Print Assumptions c14_typedef_refuted.
(** An array field is not looked at. *)
Theorem c14_array_refuted : exists apis db fields, new_from_apis [] ["Box"] apis = PoOk db /\ is_pod db (QN [] "Box") = true /\
  In (PaStruct (QN [] "Box") fields) apis /\ In (Some "s", TArray (TPath ["root"; "std"] "string" []) "3") fields /\
  refers_to (TPath ["root"; "std"] "string" []) (QN ["std"] "string") /\ unmovable (QN ["std"] "string").
Proof.
  exists [PaStruct (QN [] "Box") [(Some "s", TArray (TPath ["root"; "std"] "string" []) "3")]]. eexists. eexists.
  split; [vm_compute; reflexivity|]. split; [vm_compute; reflexivity|]. split; [left; reflexivity|]. split; [left; reflexivity|].
  split; [apply path_name_spec; reflexivity|]. apply unmovable_iff. eexists. split; vm_compute; reflexivity.
Qed.
Print Assumptions c14_array_refuted.

(** * C15 *)

(** What must never be accepted. *)
Inductive forbidden (bl : list string) (apis : list pod_api) (q : qname) : Prop :=
| fb_unmovable : unmovable q -> forbidden bl apis q
| fb_vtable f t : In (PaStruct q f) apis -> In (Some "vtable_", t) f -> forbidden bl apis q
| fb_typedef t : In (PaTypedef q t) apis -> (forall k, refers_to t k -> ~ built_in k) -> forbidden bl apis q
| fb_blocked : In q (map new_from_cpp_name bl) -> ~ In q (type_names apis) -> forbidden bl apis q
| fb_unknown : ~ built_in q -> ~ In q (type_names apis) -> forbidden bl apis q.

Lemma forbidden_entry bl apis db2 q : filled bl apis db2 -> NoDup (map pa_name apis) -> no_built_in_redeclared bl apis ->
  forbidden bl apis q -> (exists d, qget q db2 = Some (PsUnsafe, d)) \/ qget q db2 = None.
Proof.
  intros F ND NB [U|f t I V|t I N|I N|B N].
  - left. apply unmovable_iff in U as (td & K & B). rewrite (built_in_entry _ _ _ F _ _ NB K), B. eauto.
  - left. destruct (filled_struct _ _ _ F q f ND I) as (st & l & G & _ & X). rewrite X in G; [eauto|].
    unfold has_vtable. apply existsb_exists. eexists. split; [exact V|]. reflexivity.
  - left. destruct (filled_typedef _ _ _ F q t ND I) as (o & A & G). destruct o as [a|]; [|eauto].
    apply typedef_alias_some in A as (l & i & ar & k & td & td' & _ & R & K & _). exfalso. apply (N k R). apply built_in_iff. eauto.
  - left. rewrite (filled_other _ _ _ F q N). apply qmem_In in I. rewrite I. eauto.
  - rewrite (filled_other _ _ _ F q N). destruct (qmem q _); [left; eauto|]. right. rewrite base_get.
    destruct (kt_get q) eqn:K; [|reflexivity]. exfalso. apply B, built_in_iff. eauto.
Qed.

(** A request for a type which is forbidden, or holds a forbidden type at any depth, is never accepted. *)
Theorem c15_forbidden_never_accepted_partial : forall bl reqs apis r T,
  NoDup (map pa_name apis) -> no_built_in_redeclared bl apis -> no_unmovable_typedef apis ->
  In r reqs -> clos_refl_trans _ (holds apis) (new_from_cpp_name r) T -> forbidden bl apis T ->
  forall db, new_from_apis bl reqs apis <> PoOk db.
Proof.
  intros bl reqs apis r T ND NB NU I C X db H.
  destruct (run_facts _ _ _ _ H) as (db2 & fuel & F & E).
  assert (C0 : closed db2 (rev (map new_from_cpp_name reqs))).
  { intros s l0 G d J. destruct (filled_pod _ _ _ F _ _ G) as (-> & _). destruct J. }
  destruct (satisfy_closed _ _ _ _ E (filled_alias_good _ _ _ F NB NU) C0) as [_ R].
  assert (P : is_pod db (new_from_cpp_name r) = true).
  { apply is_pod_iff, R. apply -> in_rev. apply in_map, I. }
  assert (PT : is_pod db T = true).
  { clear X. induction C as [A B Y|A|A M B C1 IH1 C2 IH2]; [eapply c14_fields_of_pod_are_pod_partial; eauto | exact P | auto]. }
  destruct (satisfy_mono _ _ _ _ E) as (_ & _ & M1 & M2). unfold is_pod in PT.
  destruct (forbidden_entry _ _ _ _ F ND NB X) as [(d & G)|G]; [rewrite (M1 _ _ G) in PT | rewrite (M2 _ G) in PT]; discriminate.
Qed.
Print Assumptions c15_forbidden_never_accepted_partial.

(** What the run can end in: no value of the model stands for it going on for ever, and it panics only on
    a path which is the bare module name. *)
Definition no_bare_module (apis : list pod_api) : Prop :=
  (forall n t, In (PaTypedef n t) apis -> ~ bare_module t) /\
  (forall n f o t, In (PaStruct n f) apis -> In (o, t) f -> ~ bare_module t).

Lemma typedef_alias_ok t : ~ bare_module t -> exists o, typedef_alias t = PoOk o.
Proof.
  intros N. unfold typedef_alias. destruct t as [a b c| | | | |]; eauto. destruct (path_name a b) as [k|] eqn:P.
  - destruct (kt_get k) as [td|] eqn:K; eauto. assert (T := alias_target_table). rewrite forallb_forall in T.
    specialize (T td (kt_get_table _ _ K)). destruct (td_path td []) as [l' i' a'| | | | |]; try discriminate.
    destruct (path_name l' i'); [eauto | discriminate].
  - exfalso. apply N. apply (path_name_none a b c). exact P.
Qed.
Lemma satisfy_no_panic fuel : forall db stk, satisfy fuel db stk <> PoPanic.
Proof.
  induction fuel as [|k IH]; intros db stk; [discriminate|]. cbn [satisfy].
  destruct stk as [|t r]; [discriminate|]. destruct (qget t db) as [[[| | |a] d]|]; try discriminate; auto.
  destruct (qget a db) as [[? ?]|]; auto.
Qed.
Lemma fill_no_panic bl reqs apis : no_bare_module apis -> new_from_apis bl reqs apis <> PoPanic.
Proof.
  intros [N1 N2] H. unfold new_from_apis in H.
  assert (T1 : forall l, (forall n t, In (PaTypedef n t) l -> ~ bare_module t) -> forall db, exists r, ingest_types db l = PoOk r).
  { induction l as [|x l IH]; intros N db; [cbn; eauto|].
    assert (IH' := IH (fun n t I => N n t (or_intror I))). destruct x as [n t|n|n f|n]; cbn [ingest_types]; auto.
    assert (exists o, typedef_alias t = PoOk o) as (o & ->); [|cbn [pobind]; auto].
    apply typedef_alias_ok. apply (N n). left. reflexivity. }
  destruct (T1 apis N1 (fold_left (fun m b => qset (new_from_cpp_name b) (PsUnsafe, []) m) bl base_db)) as (db1 & E1). rewrite E1 in H. cbn [pobind] in H.
  assert (T2 : forall f, (forall o t, In (o, t) f -> ~ bare_module t) -> exists l, get_field_types f = PoOk l).
  { induction f as [|[o t] f IH]; intros N; [cbn; eauto|]. destruct (IH (fun o t I => N o t (or_intror I))) as (l & E).
    cbn [get_field_types]. destruct t as [a b c| | | | |]; eauto. rewrite E. destruct (path_name a b) eqn:P; [cbn; eauto|].
    exfalso. exact (N o _ (or_introl eq_refl) (proj1 (path_name_none a b c) P)). }
  assert (T3 : forall l, (forall n f o t, In (PaStruct n f) l -> In (o, t) f -> ~ bare_module t) -> forall db, exists r, ingest_structs db l = PoOk r).
  { induction l as [|x l IH]; intros N db; [cbn; eauto|].
    assert (IH' := IH (fun n f o t I => N n f o t (or_intror I))). destruct x as [n t|n|n f|n]; cbn [ingest_structs]; auto.
    unfold ingest_struct. destruct (T2 f (fun o t I => N n f o t (or_introl eq_refl) I)) as (l0 & ->). cbn [pobind]. auto. }
  destruct (T3 apis N2 db1) as (db2 & E2). rewrite E2 in H. cbn [pobind] in H.
  exact (satisfy_no_panic _ _ _ H).
Qed.

(** C16: following the requests always ends, also for structs which contain themselves. *)
Theorem c16_terminates : forall bl reqs apis, new_from_apis bl reqs apis <> PoFuel.
Proof.
  intros bl reqs apis H. destruct (new_from_apis_cases bl reqs apis) as [E|(db2 & F & E)]; [congruence|].
  rewrite H in E. symmetry in E. revert E. apply satisfy_ends; [eapply filled_alias_ok; eauto|].
  unfold pod_fuel. pose proof (safe_weight_total db2). lia.
Qed.
Print Assumptions c16_terminates.

(** C15: such a request is an error, in so many words. *)
Theorem c15_forbidden_is_an_error_partial : forall bl reqs apis r T,
  NoDup (map pa_name apis) -> no_built_in_redeclared bl apis -> no_unmovable_typedef apis -> no_bare_module apis ->
  In r reqs -> clos_refl_trans _ (holds apis) (new_from_cpp_name r) T -> forbidden bl apis T ->
  new_from_apis bl reqs apis = PoErr.
Proof.
  intros bl reqs apis r T ND NB NU NM I C X. destruct (new_from_apis bl reqs apis) as [db| | |] eqn:E; auto; exfalso.
  - eapply c15_forbidden_never_accepted_partial; eauto.
  - eapply fill_no_panic; eauto.
  - eapply c16_terminates; eauto.
Qed.
Print Assumptions c15_forbidden_is_an_error_partial.

Example c15_nonvacuous : exists T, clos_refl_trans _ (holds outer) (QN [] "Sec") T /\ forbidden [] outer T /\
  new_from_apis [] ["Sec"] outer = PoErr.
Proof.
  exists (QN ["std"] "string"). split; [|split].
  - apply rt_step. do 5 eexists. split; [do 3 right; left; reflexivity|]. split; [left; reflexivity | apply path_name_spec; reflexivity].
  - apply fb_unmovable, unmovable_iff. eexists. split; vm_compute; reflexivity.
  - vm_compute. reflexivity.
Qed.

(** Asking for a typedef of [std::string] to be POD is accepted in silence, and has no effect. *)
Theorem c15_typedef_request_refuted : exists apis db, new_from_apis [] ["MyStr"] apis = PoOk db /\
  is_pod db (QN [] "MyStr") = false /\ (exists t, In (PaTypedef (QN [] "MyStr") t) apis /\ refers_to t (QN ["std"] "string")) /\
  unmovable (QN ["std"] "string").
Proof.
  exists string_typedef. eexists. split; [vm_compute; reflexivity|]. split; [vm_compute; reflexivity|]. split.
  - eexists. split; [left; reflexivity|]. apply path_name_spec. reflexivity.
  - apply unmovable_iff. eexists. split; vm_compute; reflexivity.
Qed.
Print Assumptions c15_typedef_request_refuted.
(** With two such fields the same struct is refused: the second look at the typedef finds it resolved. *)
Example c15_two_fields_refused : new_from_apis [] ["Box"]
  [PaTypedef (QN [] "MyStr") (TPath ["root"; "std"] "string" []);
   PaStruct (QN [] "Box") [(Some "s", TPath ["root"] "MyStr" []); (Some "t", TPath ["root"] "MyStr" [])]] = PoErr.
Proof. vm_compute. reflexivity. Qed.

(** A request which is accepted makes the type POD. *)
Theorem c15_accepted_requests_are_pod_partial : forall bl reqs apis db r,
  no_built_in_redeclared bl apis -> no_unmovable_typedef apis ->
  new_from_apis bl reqs apis = PoOk db -> In r reqs -> is_pod db (new_from_cpp_name r) = true.
Proof.
  intros bl reqs apis db r NB NU H I. destruct (run_facts _ _ _ _ H) as (db2 & fuel & F & E).
  assert (C0 : closed db2 (rev (map new_from_cpp_name reqs))).
  { intros s l0 G d J. destruct (filled_pod _ _ _ F _ _ G) as (-> & _). destruct J. }
  destruct (satisfy_closed _ _ _ _ E (filled_alias_good _ _ _ F NB NU) C0) as [_ R].
  apply is_pod_iff, R. apply -> in_rev. apply in_map, I.
Qed.
Print Assumptions c15_accepted_requests_are_pod_partial.

(** * C16: nothing becomes POD without need. *)
Lemma reach_holds bl apis db2 roots q : filled bl apis db2 -> reach db2 roots q ->
  exists r, In r roots /\ clos_refl_trans _ (holds apis) r q.
Proof.
  intros F R. induction R as [q I|q d l R (r & I & C) (st & D) X].
  - exists q. split; [exact I | apply rt_refl].
  - exists r. split; [exact I|]. apply rt_trans with q; [exact C|]. apply rt_step. eapply filled_deps_hold; eauto.
Qed.
Theorem c16_pod_only_if_needed : forall bl reqs apis db q, new_from_apis bl reqs apis = PoOk db -> is_pod db q = true ->
  (built_in q /\ ~ unmovable q) \/ In (PaPod q) apis \/
  exists r, In r reqs /\ clos_refl_trans _ (holds apis) (new_from_cpp_name r) q.
Proof.
  intros bl reqs apis db q H P. apply is_pod_iff in P. destruct (run_facts _ _ _ _ H) as (db2 & fuel & F & E).
  destruct (satisfy_minimal _ _ _ _ E (filled_alias_ok _ _ _ F) q P) as [(d & G)|R].
  - destruct (filled_pod _ _ _ F _ _ G) as [_ [X|X]]; auto.
  - right. right. destruct (reach_holds _ _ _ _ _ F R) as (r & I & C). apply in_rev, in_map_iff in I as (r' & <- & I). eauto.
Qed.
Print Assumptions c16_pod_only_if_needed.
Example c16_nonvacuous : exists db, new_from_apis [] ["Self"] [PaStruct (QN [] "In") []; PaStruct (QN [] "Self") [(Some "a", TPath ["root"] "In" [])]; PaStruct (QN [] "Un") []] = PoOk db /\
  is_pod db (QN [] "Self") = true /\ is_pod db (QN [] "In") = true /\ is_pod db (QN [] "Un") = false.
Proof. eexists. split; [vm_compute; reflexivity|]. vm_compute. auto. Qed.

(** * Refusals have a reason. *)
Inductive unfit (bl : list string) (apis : list pod_api) : qname -> Prop :=
| uf_forbidden q : forbidden bl apis q -> unfit bl apis q
| uf_typedef q t k : In (PaTypedef q t) apis -> refers_to t k -> unmovable k -> unfit bl apis q
| uf_field q T : holds apis q T -> unfit bl apis T -> unfit bl apis q
(** the field's struct is listed no earlier than the struct itself *)
| uf_order q T f g pre post : apis = pre ++ PaStruct q f :: post -> holds apis q T -> In (PaStruct T g) (PaStruct q f :: post) -> unfit bl apis q.

Lemma nodup_app_l {A} (l m : list A) : NoDup (l ++ m) -> NoDup l.
Proof.
  induction l as [|a l IH]; intros H; [constructor|]. inversion H as [|? ? N H']; subst.
  constructor; [intros I; apply N, in_or_app; auto | auto].
Qed.
Lemma typedef_alias_none t k td : typedef_alias t = PoOk None -> refers_to t k -> kt_get k = Some td -> False.
Proof.
  intros A R K. unfold typedef_alias in A. destruct t as [l i c| | | | |]; try solve [inversion R].
  apply path_name_spec in R. rewrite R, K in A. destruct (td_path td []) as [l' i' a'| | | | |]; try discriminate.
  destruct (path_name l' i'); discriminate.
Qed.
Lemma unsafe_is_unfit bl apis db1 : NoDup (map pa_name apis) -> no_built_in_redeclared bl apis ->
  ingest_types (fold_left (fun m b => qset (new_from_cpp_name b) (PsUnsafe, []) m) bl base_db) apis = PoOk db1 ->
  forall n pre post dbm q, length pre <= n -> apis = pre ++ post -> ingest_structs db1 pre = PoOk dbm ->
  (qget q dbm = None \/ exists d, qget q dbm = Some (PsUnsafe, d)) ->
  unfit bl apis q \/ exists g, In (PaStruct q g) post.
Proof.
  intros ND NB H1. induction n as [|n IHn].
  all: intros pre post dbm q L E H2 U.
  all: destruct (in_dec (fun a b : qname => qname_eq_dec a b) q (map pa_name (filter is_struct pre))) as [I|NS].
  1: { destruct pre; [|cbn in L; lia]. destruct I. }
  2: { (* a struct listed in [pre] *)
    apply in_map_iff in I as (a & Q & I). apply filter_In in I as [I S]. destruct a as [ | | q' f| ]; try discriminate. cbn in Q. subst q'.
    assert (NDp : NoDup (map pa_name pre)) by (rewrite E, map_app in ND; eapply nodup_app_l; exact ND).
    destruct (ingest_structs_get _ _ _ NDp H2 q f I) as (l & p1 & p2 & db3 & G & Ep & H3 & Gq).
    rewrite Gq in U. destruct U as [U|(d & U)]; [discriminate|]. left.
    assert (IA : In (PaStruct q f) apis) by (rewrite E; apply in_or_app; auto).
    destruct (has_vtable f) eqn:V.
    - apply uf_forbidden. unfold has_vtable in V. apply existsb_exists in V as ([o t] & V1 & V2). cbn in V2. destruct o as [s|]; [|discriminate].
      apply String.eqb_eq in V2. subst s. eapply fb_vtable; eauto.
    - injection U as U _. unfold fields_state in U. destruct (existsb _ l) eqn:X in U; [|discriminate].
      apply existsb_exists in X as (T & IT & X). apply (get_field_types_In _ _ G) in IT as (o & a & b & c & J1 & J2).
      assert (HT : holds apis q T) by (exists f, o, a, b, c; auto).
      destruct (IHn p1 (PaStruct q f :: p2 ++ post) db3 T) as [UT|(g & Ig)].
      + rewrite Ep, app_length in L. cbn in L. lia.
      + rewrite E, Ep, <- app_assoc. reflexivity.
      + exact H3.
      + destruct (qget T db3) as [[[| | |] d3]|]; try discriminate; eauto.
      + eapply uf_field; eauto.
      + eapply (uf_order _ _ _ _ f g p1 (p2 ++ post)); [rewrite E, Ep, <- app_assoc; reflexivity | exact HT | exact Ig]. }
  (* not a struct listed so far *)
  all: assert (NS' : forall f, ~ In (PaStruct q f) pre)
    by (intros f X; apply NS, in_map_iff; exists (PaStruct q f); split; [reflexivity | apply filter_In; auto]).
  all: rewrite (ingest_structs_other _ _ _ H2 q NS') in U.
  all: destruct (in_dec (fun a b : qname => qname_eq_dec a b) q (type_names apis)) as [I|NI].
  2,4: left; apply uf_forbidden; rewrite (ingest_types_other _ _ _ H1 q) in U
    by (intros a X [(t & ->)| ->]; apply NI, in_map_iff; (eexists; split; [|apply filter_In; split; [exact X | reflexivity]]); reflexivity);
    rewrite blocklist_get in U; destruct (qmem q (map new_from_cpp_name bl)) eqn:B;
    [apply qmem_In in B; apply fb_blocked; auto|];
    rewrite base_get in U; destruct (kt_get q) as [td|] eqn:K;
    [apply fb_unmovable, unmovable_iff; exists td; split; [exact K|]; destruct U as [U|(d & U)]; [discriminate|];
      destruct (behavior_pod_safe (td_behavior td)); [discriminate | reflexivity]
    |apply fb_unknown; [intros BI; apply built_in_iff in BI as (td & BI); congruence | exact NI]].
  all: unfold type_names in I; apply in_map_iff in I as (a & Q & I); apply filter_In in I as [I S];
    destruct (ingest_types_get _ _ _ ND H1) as [TT TP];
    destruct a as [q' t|q'|q' f|q']; try discriminate; cbn in Q; subst q'.
  1,4: left; destruct (TT q t I) as (o & A & G); rewrite G in U; destruct o as [x|]; [destruct U as [U|(d & U)]; discriminate|];
    apply uf_forbidden, (fb_typedef _ _ _ t I); intros k R BI; apply built_in_iff in BI as (td & BI); exact (typedef_alias_none _ _ _ A R BI).
  1,3: rewrite (TP q I) in U; destruct U as [U|(d & U)]; discriminate.
  all: right; rewrite E in I; apply in_app_or in I as [I|I]; [destruct (NS' f I) | exists f; exact I].
Qed.

(** A refusal always has a reason: something requested, or held by value in something requested, is not
    known to be fit. *)
Theorem c15_refusal_has_a_reason : forall bl reqs apis, NoDup (map pa_name apis) -> no_built_in_redeclared bl apis ->
  new_from_apis bl reqs apis = PoErr ->
  exists r T, In r reqs /\ clos_refl_trans _ (holds apis) (new_from_cpp_name r) T /\ unfit bl apis T.
Proof.
  intros bl reqs apis ND NB H. destruct (new_from_apis_cases bl reqs apis) as [E|(db2 & F & E)]; [congruence|].
  rewrite H in E. symmetry in E. assert (AO := filled_alias_ok _ _ _ F). destruct (satisfy_refusal _ _ _ E AO) as (T & R & N).
  destruct (reach_holds _ _ _ _ _ F R) as (r & I & C). apply in_rev, in_map_iff in I as (r' & <- & I).
  exists r', T. split; [exact I|]. split; [exact C|].
  assert (DIRECT : forall q, qget q db2 = None \/ (exists d, qget q db2 = Some (PsUnsafe, d)) -> unfit bl apis q).
  { intros q U. destruct F as (db1 & H1 & H2).
    destruct (unsafe_is_unfit bl apis db1 ND NB H1 (length apis) apis [] db2 q) as [X|(g & [])]; auto. rewrite app_nil_r. reflexivity. }
  destruct N as [q G|q d G|q a d G N]; [auto | apply DIRECT; eauto|].
  destruct (filled_alias_src _ _ _ F _ _ _ G) as (t & k & td & td' & IT & RT & K & K' & B).
  assert (G' := built_in_entry _ _ _ F _ _ NB K').
  destruct (behavior_pod_safe (td_behavior td')) eqn:B'.
  - exfalso. inversion N; subst; congruence.
  - eapply uf_typedef; [exact IT | exact RT|]. apply unmovable_iff. exists td. split; [exact K | congruence].
Qed.
Print Assumptions c15_refusal_has_a_reason.

(** The order matters: a struct listed before the struct of its field is refused although C++ and the
    definitions are the same. *)
Example c15_order_matters :
  new_from_apis [] ["A"] [PaStruct (QN [] "A") [(Some "b", TPath ["root"] "B" [])]; PaStruct (QN [] "B") []] = PoErr /\
  (exists db, new_from_apis [] ["A"] [PaStruct (QN [] "B") []; PaStruct (QN [] "A") [(Some "b", TPath ["root"] "B" [])]] = PoOk db).
Proof. split; [vm_compute; reflexivity|]. eexists. vm_compute. reflexivity. Qed.
