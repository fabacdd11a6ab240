(** Proofs about the by-value checker. *)
From Coq Require Import Relations.
From Verif Require Import Base QNamesModel KnownTypesModel KnownTypesProofs KnownTypesProps ApiModel TypesModel TypesSpec
  ConcreteNamesModel TypeConverterModel ByValueModel.

(** * The starting table *)
Lemma fold_qset_fun {A B} (key : B -> qname) (f : qname -> A) (val : B -> A) l : (forall b, In b l -> val b = f (key b)) ->
  forall m q, qget q (fold_left (fun m b => qset (key b) (val b) m) l m) =
    if qmem q (map key l) then Some (f q) else qget q m.
Proof.
  induction l as [|b l IH]; intros H m q; [reflexivity|]. cbn [fold_left map].
  rewrite IH by (intros; apply H; right; assumption). unfold qmem. cbn [existsb].
  destruct (existsb (qn_eqb q) (map key l)) eqn:E.
  - rewrite orb_true_r. reflexivity.
  - rewrite orb_false_r. destruct (qn_eqb q (key b)) eqn:Q.
    + apply qn_eqb_eq in Q. subst q. rewrite qget_qset_same, (H b (or_introl eq_refl)). reflexivity.
    + apply qn_eqb_neq in Q. apply qget_qset_other. exact Q.
Qed.

Lemma all_names_known q : In q kt_all_names -> exists td, kt_get q = Some td.
Proof.
  intros H. assert (N := names_are_spellings). rewrite forallb_forall in N. specialize (N q H).
  apply existsb_exists in N as (td & Ht & Hq). apply qmem_In in Hq. exists td. apply kt_get_spelling; assumption.
Qed.

Lemma base_get q : qget q base_db =
  match kt_get q with
  | Some td => Some (if behavior_pod_safe (td_behavior td) then PsPod else PsUnsafe, [])
  | None => None
  end.
Proof.
  unfold base_db.
  rewrite (fold_qset_fun fst (fun q => (match option_map (fun td => behavior_pod_safe (td_behavior td)) (kt_get q) with Some true => PsPod | _ => PsUnsafe end, @nil qname))).
  - unfold pod_safe_types. rewrite map_map. cbn [fst]. rewrite map_id.
    destruct (qmem q kt_all_names) eqn:E.
    + apply qmem_In, all_names_known in E as (td & ->). cbn. destruct (behavior_pod_safe (td_behavior td)); reflexivity.
    + apply qmem_nIn in E. destruct (kt_get q) as [td|] eqn:K; [|reflexivity].
      exfalso. apply E. eapply kt_get_in_names; eauto.
  - intros [n o] I. unfold pod_safe_types in I. apply in_map_iff in I as (n' & I & _). injection I as <- <-. reflexivity.
Qed.

(** * Following the requests *)
Definition pod (db : pod_db) (q : qname) : Prop := exists d, qget q db = Some (PsPod, d).
Definition deps_of (db : pod_db) (q : qname) (l : list qname) : Prop := exists st, qget q db = Some (st, l).
(** Every alias points to a POD type, and has no dependents of its own. *)
Definition alias_good (db : pod_db) : Prop := forall t a d, qget t db = Some (PsAlias a, d) -> d = [] /\ pod db a.

Definition weight1 (e : pod_state * list qname) : nat := match fst e with PsSafe => length (snd e) | _ => 0 end.
Fixpoint safe_weight (db : pod_db) : nat := match db with [] => 0 | e :: r => weight1 (snd e) + safe_weight r end.

Lemma safe_weight_set q st d db : qget q db = Some (PsSafe, d) -> st <> PsSafe ->
  safe_weight (qset q (st, d) db) + length d = safe_weight db.
Proof.
  intros H N. induction db as [|[k [s0 d0]] db IH]; cbn [qget qset] in *; [discriminate|].
  destruct (qn_eqb q k) eqn:E; cbn [safe_weight snd].
  - injection H as -> ->. unfold weight1. cbn [fst snd]. destruct st; try congruence; lia.
  - specialize (IH H). lia.
Qed.
Lemma safe_weight_set_other q st d s0 db : qget q db = Some (s0, d) -> s0 <> PsSafe ->
  safe_weight (qset q (st, d) db) <= safe_weight db + match st with PsSafe => length d | _ => 0 end.
Proof.
  intros H N. induction db as [|[k [s1 d1]] db IH]; cbn [qget qset] in *; [discriminate|].
  destruct (qn_eqb q k) eqn:E; cbn [safe_weight snd].
  - injection H as -> ->. unfold weight1. cbn [fst snd]. destruct st, s0; try congruence; lia.
  - specialize (IH H). lia.
Qed.
Lemma safe_weight_total db : safe_weight db <= fold_right (fun e s => length (snd (snd e)) + s) 0 db.
Proof. induction db as [|[k [s d]] db IH]; cbn; [lia|]. unfold weight1. destruct s; cbn; lia. Qed.

(** Every alias points to something listed, and has no dependents: the rounds are bounded. *)
Definition alias_ok (db : pod_db) : Prop := forall t a d, qget t db = Some (PsAlias a, d) -> d = [] /\ qget a db <> None.

Lemma alias_ok_set db t st d st0 : qget t db = Some (st0, d) -> (forall b, st = PsAlias b -> d = [] /\ qget b db <> None) ->
  alias_ok db -> alias_ok (qset t (st, d) db).
Proof.
  intros G N H t' a d' E.
  assert (PR : forall x, qget x db <> None -> qget x (qset t (st, d) db) <> None).
  { intros x X. destruct (qname_eq_dec x t) as [->|NX]; [rewrite qget_qset_same; discriminate | rewrite qget_qset_other by exact NX; exact X]. }
  destruct (qname_eq_dec t' t) as [->|NE].
  - rewrite qget_qset_same in E. injection E as -> <-. destruct (N a eq_refl). auto.
  - rewrite qget_qset_other in E by exact NE. destruct (H t' a d' E). auto.
Qed.
Lemma alias_ok_step db t a d : alias_ok db -> qget t db = Some (PsAlias a, d) ->
  d = [] /\ exists st d', qget a db = Some (st, d') /\ alias_ok (qset t (st, []) db).
Proof.
  intros AO G. destruct (AO _ _ _ G) as (-> & P). split; [reflexivity|]. destruct (qget a db) as [[st d']|] eqn:A; [|congruence].
  exists st, d'. split; [reflexivity|]. eapply alias_ok_set; eauto. intros b ->. split; [reflexivity|]. apply (AO _ _ _ A).
Qed.

Lemma satisfy_ends : forall fuel db stack, alias_ok db -> length stack + safe_weight db < fuel -> satisfy fuel db stack <> PoFuel.
Proof.
  induction fuel as [|k IH]; intros db stack AF L; [lia|]. cbn [satisfy].
  destruct stack as [|t rest]; [discriminate|]. cbn [length] in L.
  destruct (qget t db) as [[st d]|] eqn:G; [|discriminate]. destruct st as [| | |a].
  - discriminate.
  - apply IH; [eapply alias_ok_set; eauto; discriminate|]. pose proof (safe_weight_set _ PsPod _ _ G ltac:(discriminate)).
    rewrite app_length, rev_length. lia.
  - apply IH; [exact AF | lia].
  - destruct (alias_ok_step _ _ _ _ AF G) as (-> & st1 & d1 & G1 & N1). rewrite G1. apply IH; [exact N1|].
    pose proof (safe_weight_set_other t st1 [] _ _ G ltac:(discriminate)). destruct st1; cbn [length] in *; lia.
Qed.

(** What a successful run does. *)
Inductive reach (db : pod_db) (roots : list qname) : qname -> Prop :=
| rc_root q : In q roots -> reach db roots q
| rc_dep q d l : reach db roots q -> deps_of db q l -> In d l -> reach db roots d.

Lemma deps_set db t st d st0 : qget t db = Some (st0, d) -> forall q l, deps_of (qset t (st, d) db) q l <-> deps_of db q l.
Proof.
  intros G q l. unfold deps_of. destruct (qname_eq_dec q t) as [->|NE].
  - rewrite qget_qset_same, G. split; intros (s & E); injection E as _ <-; eauto.
  - rewrite qget_qset_other by exact NE. reflexivity.
Qed.
Lemma reach_deps db db' r q : (forall q l, deps_of db q l <-> deps_of db' q l) -> reach db r q -> reach db' r q.
Proof. intros H R. induction R as [q I|q d l R IH D I]; [constructor; exact I|]. eapply rc_dep; eauto. apply H, D. Qed.
Lemma reach_incl db r r' q : (forall x, In x r -> reach db r' x) -> reach db r q -> reach db r' q.
Proof. intros H R. induction R as [q I|q d l R IH D I]; [apply H, I|]. eapply rc_dep; eauto. Qed.
Lemma pod_set db t st d st0 q : qget t db = Some (st0, d) -> st0 <> PsPod -> pod db q -> pod (qset t (st, d) db) q.
Proof.
  intros G N (d' & P). unfold pod. destruct (qname_eq_dec q t) as [->|NE]; [congruence|].
  rewrite qget_qset_other by exact NE. eauto.
Qed.

Lemma satisfy_mono : forall fuel db stack db', satisfy fuel db stack = PoOk db' ->
  (forall q, pod db q -> pod db' q) /\ (forall q l, deps_of db q l <-> deps_of db' q l) /\
  (forall q d, qget q db = Some (PsUnsafe, d) -> qget q db' = Some (PsUnsafe, d)) /\
  (forall q, qget q db = None -> qget q db' = None).
Proof.
  induction fuel as [|k IH]; intros db stack db' H; [discriminate|]. cbn [satisfy] in H.
  destruct stack as [|t rest]; [injection H as <-; intuition|].
  assert (STEP : forall st d st0 stk, qget t db = Some (st0, d) -> st0 <> PsPod -> st0 <> PsUnsafe ->
     satisfy k (qset t (st, d) db) stk = PoOk db' ->
     (forall q, pod db q -> pod db' q) /\ (forall q l, deps_of db q l <-> deps_of db' q l) /\
     (forall q d, qget q db = Some (PsUnsafe, d) -> qget q db' = Some (PsUnsafe, d)) /\
     (forall q, qget q db = None -> qget q db' = None)).
  { intros st d st0 stk G N1 N2 R. apply IH in R as (R1 & R2 & R3 & R4). split; [|split; [|split]].
    - intros q P. apply R1. eapply pod_set; eauto.
    - intros q l. rewrite <- R2. symmetry. eapply deps_set; eauto.
    - intros q d' Q. apply R3. rewrite qget_qset_other; [exact Q|]. intros ->. congruence.
    - intros q Q. apply R4. rewrite qget_qset_other; [exact Q|]. intros ->. congruence. }
  destruct (qget t db) as [[st d]|] eqn:G; [|discriminate]. destruct st as [| | |a]; [discriminate| | |].
  - eapply STEP; eauto; discriminate.
  - apply IH in H. exact H.
  - destruct (qget a db) as [[st1 d1]|]; [|apply IH in H; exact H]. eapply STEP; eauto; discriminate.
Qed.

(** Closure, given that aliases point to POD types. *)
Lemma alias_good_set db t d st0 : qget t db = Some (st0, d) -> st0 <> PsPod -> alias_good db -> alias_good (qset t (PsPod, d) db).
Proof.
  intros G N AG t' a d' E. destruct (qname_eq_dec t' t) as [->|NE].
  - rewrite qget_qset_same in E. discriminate.
  - rewrite qget_qset_other in E by exact NE. destruct (AG _ _ _ E) as (-> & P). split; [reflexivity|]. eapply pod_set; eauto.
Qed.

Definition closed (db : pod_db) (stack : list qname) : Prop :=
  forall s l, qget s db = Some (PsPod, l) -> forall d, In d l -> pod db d \/ In d stack.

Lemma satisfy_closed : forall fuel db stack db', satisfy fuel db stack = PoOk db' -> alias_good db -> closed db stack ->
  closed db' [] /\ (forall q, In q stack -> pod db' q).
Proof.
  induction fuel as [|k IH]; intros db stack db' H AG C; [discriminate|]. cbn [satisfy] in H.
  destruct stack as [|t rest]; [injection H as <-; split; [exact C | intros q []]|].
  assert (DONE : pod db t -> forall s l, qget s db = Some (PsPod, l) -> forall d, In d l -> pod db d \/ In d rest).
  { intros P s l Gs d Id. destruct (C s l Gs d Id) as [Q|[<-|Q]]; auto. }
  assert (STEP : forall d st0 stk, qget t db = Some (st0, d) -> st0 <> PsPod ->
     (forall x, In x d -> In x stk) -> (forall x, In x rest -> In x stk) ->
     satisfy k (qset t (PsPod, d) db) stk = PoOk db' -> closed db' [] /\ (forall q, In q (t :: rest) -> pod db' q)).
  { intros d st0 stk G N I1 I2 R. pose proof (satisfy_mono _ _ _ _ R) as (M1 & _).
    apply IH in R as (R1 & R2).
    - split; [exact R1|]. intros q [<-|Q]; [apply M1; exists d; apply qget_qset_same | apply R2, I2, Q].
    - eapply alias_good_set; eauto.
    - intros s l Gs x Ix. destruct (qname_eq_dec s t) as [->|NE].
      + rewrite qget_qset_same in Gs. injection Gs as <-. right. apply I1, Ix.
      + rewrite qget_qset_other in Gs by exact NE. destruct (C s l Gs x Ix) as [P|[<-|P]].
        * left. eapply pod_set; eauto.
        * left. exists d. apply qget_qset_same.
        * right. apply I2, P. }
  destruct (qget t db) as [[st d]|] eqn:G; [|discriminate]. destruct st as [| | |a]; [discriminate| | |].
  - apply (STEP d PsSafe (rev d ++ rest) eq_refl); auto; [discriminate | |]; intros x X; apply in_or_app; [left; apply -> in_rev; exact X | right; exact X].
  - pose proof (satisfy_mono _ _ _ _ H) as (M1 & _). apply IH in H as (R1 & R2); [|exact AG|].
    + split; [exact R1|]. intros q [<-|Q]; [apply M1; exists d; exact G | apply R2, Q].
    + intros s l Gs. apply (DONE (ex_intro _ d G) s l Gs).
  - destruct (AG _ _ _ G) as (-> & da & Ga). rewrite Ga in H.
    apply (STEP [] (PsAlias a) rest eq_refl); auto; [discriminate | intros x []].
Qed.

(** Only what is reachable becomes POD. *)
Lemma satisfy_minimal : forall fuel db stack db', satisfy fuel db stack = PoOk db' -> alias_ok db ->
  forall q, pod db' q -> pod db q \/ reach db stack q.
Proof.
  induction fuel as [|k IH]; intros db stack db' H AF q P; [discriminate|]. cbn [satisfy] in H.
  destruct stack as [|t rest]; [injection H as <-; left; exact P|].
  assert (STEP : forall st d st0 stk, qget t db = Some (st0, d) -> alias_ok (qset t (st, d) db) ->
     (forall x, In x stk -> In x d \/ In x rest) -> satisfy k (qset t (st, d) db) stk = PoOk db' ->
     pod db q \/ reach db (t :: rest) q).
  { intros st d st0 stk G N I R. destruct (IH _ _ _ R N q P) as [(d' & Q)|Q].
    - destruct (qname_eq_dec q t) as [->|NE]; [right; constructor; left; reflexivity|].
      rewrite qget_qset_other in Q by exact NE. left. exists d'. exact Q.
    - right. apply (reach_deps _ db) in Q; [|eapply deps_set; eauto].
      eapply reach_incl; [|exact Q]. intros x X. destruct (I x X) as [Xd|Xr].
      + eapply rc_dep; [constructor; left; reflexivity | exists st0; exact G | exact Xd].
      + constructor. right. exact Xr. }
  destruct (qget t db) as [[st d]|] eqn:G; [|discriminate]. destruct st as [| | |a]; [discriminate| | |].
  - apply (STEP PsPod d PsSafe (rev d ++ rest) eq_refl); [eapply alias_ok_set; eauto; discriminate | | exact H]. intros x X.
    apply in_app_or in X as [X|X]; [left; apply in_rev; exact X | right; exact X].
  - destruct (IH _ _ _ H AF q P) as [Q|Q]; [left; exact Q|]. right. eapply reach_incl; [|exact Q].
    intros x X. constructor. right. exact X.
  - destruct (alias_ok_step _ _ _ _ AF G) as (-> & st1 & d1 & G1 & N1). rewrite G1 in H.
    apply (STEP st1 [] (PsAlias a) rest eq_refl); [exact N1 | auto | exact H].
Qed.

(** A refusal has a reason: something reachable is missing or unsafe, or an alias of such. *)
Inductive no_good (db : pod_db) : qname -> Prop :=
| ng_none q : qget q db = None -> no_good db q
| ng_unsafe q d : qget q db = Some (PsUnsafe, d) -> no_good db q
| ng_alias q a d : qget q db = Some (PsAlias a, d) -> no_good db a -> no_good db q.

Lemma satisfy_refusal : forall fuel db stack, satisfy fuel db stack = PoErr -> alias_ok db ->
  exists q, reach db stack q /\ no_good db q.
Proof.
  induction fuel as [|k IH]; intros db stack H AF; [discriminate|]. cbn [satisfy] in H.
  destruct stack as [|t rest]; [discriminate|].
  assert (STEP : forall st d st0 stk, qget t db = Some (st0, d) -> alias_ok (qset t (st, d) db) ->
     (forall q, no_good (qset t (st, d) db) q -> no_good db q) ->
     (forall x, In x stk -> In x d \/ In x rest) -> satisfy k (qset t (st, d) db) stk = PoErr ->
     exists q, reach db (t :: rest) q /\ no_good db q).
  { intros st d st0 stk G N NG I R. destruct (IH _ _ R N) as (q & Q & B).
    exists q. split; [|apply NG, B]. apply (reach_deps _ db) in Q; [|eapply deps_set; eauto].
    eapply reach_incl; [|exact Q]. intros x X. destruct (I x X) as [Xd|Xr].
    - eapply rc_dep; [constructor; left; reflexivity | exists st0; exact G | exact Xd].
    - constructor. right. exact Xr. }
  destruct (qget t db) as [[st d]|] eqn:G.
  2:{ exists t. split; [constructor; left; reflexivity | apply ng_none; exact G]. }
  destruct st as [| | |a].
  - exists t. split; [constructor; left; reflexivity|]. eapply ng_unsafe; eauto.
  - apply (STEP PsPod d PsSafe (rev d ++ rest) eq_refl); [eapply alias_ok_set; eauto; discriminate | | | exact H].
    + intros q B. induction B as [q B|q d' B|q a d' B B1 IHB];
        (destruct (qname_eq_dec q t) as [->|NE]; [rewrite qget_qset_same in B; discriminate | rewrite qget_qset_other in B by exact NE]);
        [eapply ng_none | eapply ng_unsafe | eapply ng_alias]; eauto.
    + intros x X. apply in_app_or in X as [X|X]; [left; apply in_rev; exact X | right; exact X].
  - destruct (IH _ _ H AF) as (q & Q & B). exists q. split; [|exact B]. eapply reach_incl; [|exact Q].
    intros x X. constructor. right. exact X.
  - destruct (alias_ok_step _ _ _ _ AF G) as (-> & st1 & d1 & G1 & N1). rewrite G1 in H.
    apply (STEP st1 [] (PsAlias a) rest eq_refl); [exact N1 | | auto | exact H].
    intros q B. induction B as [q B|q d' B|q b d' B B1 IHB]; (destruct (qname_eq_dec q t) as [->|NE];
        [rewrite qget_qset_same in B | rewrite qget_qset_other in B by exact NE; solve [eapply ng_none; eauto | eapply ng_unsafe; eauto | eapply ng_alias; eauto]]).
    + discriminate.
    + injection B as -> _. eapply ng_alias; [exact G|]. eapply ng_unsafe; eauto.
    + injection B as -> _. eapply ng_alias; [exact G|]. eapply ng_alias; eauto.
Qed.

(** * Filling the table *)
Definition pa_name (a : pod_api) : qname := match a with PaTypedef n _ | PaPod n | PaStruct n _ | PaOther n => n end.
Definition is_struct (a : pod_api) : bool := match a with PaStruct _ _ => true | _ => false end.

Lemma blocklist_get bl (m : pod_db) q :
  qget q (fold_left (fun (m : pod_db) b => qset (new_from_cpp_name b) (PsUnsafe, []) m) bl m) =
    if qmem q (map new_from_cpp_name bl) then Some (PsUnsafe, []) else qget q m.
Proof. apply (fold_qset_fun new_from_cpp_name (fun _ => (PsUnsafe, @nil qname)) (fun _ => (PsUnsafe, @nil qname))). reflexivity. Qed.

Lemma ingest_types_other : forall apis db db', ingest_types db apis = PoOk db' -> forall q,
  (forall a, In a apis -> (exists t, a = PaTypedef q t) \/ a = PaPod q -> False) -> qget q db' = qget q db.
Proof.
  induction apis as [|a apis IH]; intros db db' H q N; [injection H as <-; reflexivity|].
  assert (N' : forall a, In a apis -> (exists t, a = PaTypedef q t) \/ a = PaPod q -> False) by (intros x X; apply N; right; exact X).
  destruct a as [n t|n|n f|n]; cbn [ingest_types] in H.
  - destruct (typedef_alias t); try discriminate. cbn [pobind] in H. rewrite (IH _ _ H q N'). apply qget_qset_other.
    intros ->. apply (N (PaTypedef n t)); [left; reflexivity | left; eauto].
  - rewrite (IH _ _ H q N'). apply qget_qset_other. intros ->. apply (N (PaPod n)); [left; reflexivity | right; reflexivity].
  - apply (IH _ _ H q N').
  - apply (IH _ _ H q N').
Qed.

Lemma ingest_types_get : forall apis db db', NoDup (map pa_name apis) -> ingest_types db apis = PoOk db' ->
  (forall n t, In (PaTypedef n t) apis -> exists o, typedef_alias t = PoOk o /\ qget n db' = Some (match o with Some q => PsAlias q | None => PsUnsafe end, [])) /\
  (forall n, In (PaPod n) apis -> qget n db' = Some (PsPod, [])).
Proof.
  induction apis as [|a apis IH]; intros db db' ND H; [split; intros ? *; intros []|].
  inversion ND as [|? ? NI ND']; subst.
  assert (REST : forall db1 n, ingest_types db1 apis = PoOk db' -> pa_name a = n -> qget n db' = qget n db1).
  { intros db1 n R E. apply (ingest_types_other _ _ _ R). intros x X [(t & ->)| ->]; apply NI; rewrite E; apply in_map_iff; eexists; split; [|exact X|  |exact X]; reflexivity. }
  destruct a as [n t|n|n f|n]; cbn [ingest_types] in H.
  - destruct (typedef_alias t) as [o| | |] eqn:T; try discriminate. cbn [pobind] in H. destruct (IH _ _ ND' H) as [I1 I2]. split.
    + intros n' t' [E|X]; [injection E as <- <-|apply I1, X]. exists o. split; [exact T|]. rewrite (REST _ n H eq_refl). apply qget_qset_same.
    + intros n' [E|X]; [discriminate | apply I2, X].
  - destruct (IH _ _ ND' H) as [I1 I2]. split.
    + intros n' t' [E|X]; [discriminate | apply I1, X].
    + intros n' [E|X]; [injection E as <-; rewrite (REST _ n H eq_refl); apply qget_qset_same | apply I2, X].
  - destruct (IH _ _ ND' H) as [I1 I2]. split; [intros n' t' [E|X] | intros n' [E|X]]; try discriminate; auto.
  - destruct (IH _ _ ND' H) as [I1 I2]. split; [intros n' t' [E|X] | intros n' [E|X]]; try discriminate; auto.
Qed.

Lemma ingest_structs_other : forall apis db db', ingest_structs db apis = PoOk db' -> forall q,
  (forall f, ~ In (PaStruct q f) apis) -> qget q db' = qget q db.
Proof.
  induction apis as [|a apis IH]; intros db db' H q N; [injection H as <-; reflexivity|].
  assert (N' : forall f, ~ In (PaStruct q f) apis) by (intros f X; apply (N f); right; exact X).
  destruct a as [n t|n|n f|n]; cbn [ingest_structs] in H; try (apply (IH _ _ H q N')).
  unfold ingest_struct in H. destruct (get_field_types f); try discriminate. cbn [pobind] in H.
  rewrite (IH _ _ H q N'). apply qget_qset_other. intros ->. apply (N f). left. reflexivity.
Qed.

(** The state of a struct is settled by what was listed before it. *)
Lemma ingest_structs_get : forall apis db db', NoDup (map pa_name apis) -> ingest_structs db apis = PoOk db' ->
  forall n f, In (PaStruct n f) apis -> exists l pre post dbm, get_field_types f = PoOk l /\
    apis = pre ++ PaStruct n f :: post /\ ingest_structs db pre = PoOk dbm /\
    qget n db' = Some (if has_vtable f then PsUnsafe else fields_state dbm l, l).
Proof.
  induction apis as [|a apis IH]; intros db db' ND H n f I; [destruct I|].
  inversion ND as [|? ? NI ND']; subst.
  destruct I as [->|I].
  - cbn [ingest_structs] in H. unfold ingest_struct in H. destruct (get_field_types f) as [l| | |] eqn:G; try discriminate.
    cbn [pobind] in H. exists l, [], apis, db. split; [reflexivity|]. split; [reflexivity|]. split; [reflexivity|].
    rewrite (ingest_structs_other _ _ _ H n).
    + apply qget_qset_same.
    + intros f' X. apply NI. cbn. apply in_map_iff. exists (PaStruct n f'). split; [reflexivity | exact X].
  - destruct a as [m t|m|m g|m]; cbn [ingest_structs] in H.
    1,2,4: destruct (IH _ _ ND' H n f I) as (l & pre & post & dbm & H1 & -> & H3 & H4);
      match goal with |- exists _ _ _ _, _ /\ ?a :: _ = _ /\ _ => exists l, (a :: pre), post, dbm end; split; [exact H1|]; split; [reflexivity|]; split; [exact H3 | exact H4].
    unfold ingest_struct in H. destruct (get_field_types g) as [l'| | |] eqn:G; try discriminate. cbn [pobind] in H.
    destruct (IH _ _ ND' H n f I) as (l & pre & post & dbm & H1 & -> & H3 & H4).
    exists l, (PaStruct m g :: pre), post, dbm. split; [exact H1|]. split; [reflexivity|]. split; [|exact H4].
    cbn [ingest_structs]. unfold ingest_struct. rewrite G. cbn [pobind]. exact H3.
Qed.

Lemma get_field_types_In : forall f l, get_field_types f = PoOk l -> forall q,
  In q l <-> exists o lead id args, In (o, TPath lead id args) f /\ refers_to (TPath lead id args) q.
Proof.
  induction f as [|[o t] f IH]; intros l H q; cbn [get_field_types] in H.
  - injection H as <-. split; [intros []|]. intros (o & a & b & c & [] & _).
  - assert (SKIP : (forall a b c, t <> TPath a b c) -> get_field_types f = PoOk l ->
      In q l <-> exists o' lead id args, In (o', TPath lead id args) ((o, t) :: f) /\ refers_to (TPath lead id args) q).
    { intros N R. rewrite (IH l R q). split; intros (o' & a & b & c & X & Y); exists o', a, b, c; (split; [|exact Y]).
      - right. exact X.
      - destruct X as [X|X]; [|exact X]. injection X as _ X. destruct (N _ _ _ X). }
    destruct t as [lead id args| | | | |]; try (apply SKIP; [discriminate | exact H]).
    destruct (path_name lead id) as [p|] eqn:P; [|discriminate].
    destruct (get_field_types f) as [l0| | |] eqn:G; try discriminate. cbn [pobind] in H. injection H as <-.
    specialize (IH l0 eq_refl q). cbn [In]. rewrite IH. split.
    + intros [<-|(o' & a & b & c & X & Y)].
      * exists o, lead, id, args. split; [left; reflexivity | apply path_name_spec, P].
      * exists o', a, b, c. split; [right; exact X | exact Y].
    + intros (o' & a & b & c & [X|X] & Y).
      * injection X as <- <- <- <-. left. apply (path_name_spec _ _ args) in Y. congruence.
      * right. exists o', a, b, c. split; [exact X | exact Y].
Qed.

(** The name standing for a built-in type is in the table with the same behaviour. *)
Lemma alias_target_table : forallb (fun td => match td_path td [] with
    | TPath l i _ => match path_name l i with
                     | Some q => match kt_get q with Some td' => Bool.eqb (behavior_pod_safe (td_behavior td')) (behavior_pod_safe (td_behavior td)) | None => false end
                     | None => false end
    | _ => false end) known_table = true.
Proof. vm_compute. reflexivity. Qed.

Lemma kt_get_table q td : kt_get q = Some td -> In td known_table.
Proof. intros H. apply kt_get_iff in H. tauto. Qed.

Lemma typedef_alias_some t q : typedef_alias t = PoOk (Some q) ->
  exists lead id args k td td', t = TPath lead id args /\ refers_to t k /\ kt_get k = Some td /\ kt_get q = Some td' /\
    behavior_pod_safe (td_behavior td') = behavior_pod_safe (td_behavior td).
Proof.
  unfold typedef_alias. destruct t as [lead id args| | | | |]; try discriminate.
  destruct (path_name lead id) as [k|] eqn:P; [|discriminate]. destruct (kt_get k) as [td|] eqn:K; [|discriminate].
  assert (T := alias_target_table). rewrite forallb_forall in T. specialize (T td (kt_get_table _ _ K)).
  destruct (td_path td []) as [l i a| | | | |]; try discriminate. destruct (path_name l i) as [q'|]; [|discriminate].
  intros H. injection H as ->. destruct (kt_get q) as [td'|] eqn:K'; [|discriminate]. apply eqb_prop in T.
  exists lead, id, args, k, td, td'. split; [reflexivity|]. split; [apply path_name_spec, P|]. auto.
Qed.

(** * Invariants of the filling, whatever the list *)
Lemma ingest_types_inv (P : pod_db -> Prop) apis : forall db db', ingest_types db apis = PoOk db' -> P db ->
  (forall db n t o, In (PaTypedef n t) apis -> typedef_alias t = PoOk o -> P db ->
     P (qset n (match o with Some q => PsAlias q | None => PsUnsafe end, []) db)) ->
  (forall db n, In (PaPod n) apis -> P db -> P (qset n (PsPod, []) db)) -> P db'.
Proof.
  induction apis as [|a apis IH]; intros db db' H P0 HT HP; [injection H as <-; exact P0|].
  assert (REST : forall db1, ingest_types db1 apis = PoOk db' -> P db1 -> P db').
  { intros db1 H1 P1. apply (IH _ _ H1 P1); [intros; eapply HT; eauto; right; eassumption | intros; apply HP; [right|]; assumption]. }
  destruct a as [n t|n|n f|n]; cbn [ingest_types] in H; try (apply (REST _ H P0)).
  - destruct (typedef_alias t) as [o| | |] eqn:T; try discriminate. cbn [pobind] in H. apply (REST _ H).
    apply (HT db n t o); [left; reflexivity | exact T | exact P0].
  - apply (REST _ H). apply HP; [left; reflexivity | exact P0].
Qed.
Lemma ingest_structs_inv (P : pod_db -> Prop) apis : forall db db', ingest_structs db apis = PoOk db' -> P db ->
  (forall db n f l st, In (PaStruct n f) apis -> get_field_types f = PoOk l -> st = PsUnsafe \/ st = PsSafe -> P db ->
     P (qset n (st, l) db)) -> P db'.
Proof.
  induction apis as [|a apis IH]; intros db db' H P0 HS; [injection H as <-; exact P0|].
  assert (REST : forall db1, ingest_structs db1 apis = PoOk db' -> P db1 -> P db').
  { intros db1 H1 P1. apply (IH _ _ H1 P1). intros. eapply HS; eauto. right. eassumption. }
  destruct a as [n t|n|n f|n]; cbn [ingest_structs] in H; try (apply (REST _ H P0)).
  unfold ingest_struct in H. destruct (get_field_types f) as [l| | |] eqn:G; try discriminate. cbn [pobind] in H. apply (REST _ H).
  eapply HS; [left; reflexivity | exact G | | exact P0]. unfold fields_state. destruct (has_vtable f); [auto|]. destruct (existsb _ l); auto.
Qed.

(** The table just before the requests are followed. *)
Definition filled (bl : list string) (apis : list pod_api) (db2 : pod_db) : Prop :=
  exists db1, ingest_types (fold_left (fun m b => qset (new_from_cpp_name b) (PsUnsafe, []) m) bl base_db) apis = PoOk db1 /\
              ingest_structs db1 apis = PoOk db2.

Lemma filled_inv (P : pod_db -> Prop) bl apis db2 : filled bl apis db2 -> P base_db ->
  (forall db q, P db -> In q (map new_from_cpp_name bl) -> P (qset q (PsUnsafe, []) db)) ->
  (forall db n t o, In (PaTypedef n t) apis -> typedef_alias t = PoOk o -> P db ->
     P (qset n (match o with Some q => PsAlias q | None => PsUnsafe end, []) db)) ->
  (forall db n, In (PaPod n) apis -> P db -> P (qset n (PsPod, []) db)) ->
  (forall db n f l st, In (PaStruct n f) apis -> get_field_types f = PoOk l -> st = PsUnsafe \/ st = PsSafe -> P db ->
     P (qset n (st, l) db)) -> P db2.
Proof.
  intros (db1 & H1 & H2) B HB HT HP HS. eapply ingest_structs_inv; [exact H2 | | exact HS].
  eapply ingest_types_inv; [exact H1 | | exact HT | exact HP]. clear H1 H2 HT HP HS.
  revert B HB. generalize base_db. induction bl as [|b bl IH]; intros m B HB; [exact B|]. cbn [fold_left].
  apply IH; [apply HB; [exact B | left; reflexivity] | intros; apply HB; [assumption | right; assumption]].
Qed.

Lemma set_present {A} t (v : A) m x : qget x m <> None -> qget x (qset t v m) <> None.
Proof.
  intros X. destruct (qname_eq_dec x t) as [->|NX]; [rewrite qget_qset_same; discriminate | rewrite qget_qset_other by exact NX; exact X].
Qed.

Lemma filled_alias_ok bl apis db2 : filled bl apis db2 -> alias_ok db2.
Proof.
  intros F.
  assert (P : (forall t a d, qget t db2 = Some (PsAlias a, d) -> d = [] /\ exists td, kt_get a = Some td) /\
              (forall a td, kt_get a = Some td -> qget a db2 <> None)).
  { apply (filled_inv (fun db => (forall t a d, qget t db = Some (PsAlias a, d) -> d = [] /\ exists td, kt_get a = Some td) /\
              (forall a td, kt_get a = Some td -> qget a db <> None)) _ _ _ F).
    - split.
      + intros t a d H. rewrite base_get in H. destruct (kt_get t) as [td|]; [|discriminate]. destruct (behavior_pod_safe _); discriminate.
      + intros a td H. rewrite base_get, H. discriminate.
    - intros db q [P1 P2] _. split; [|intros a td K; apply set_present; eauto]. intros t a d H.
      destruct (qname_eq_dec t q) as [->|N]; [rewrite qget_qset_same in H; discriminate | rewrite qget_qset_other in H by exact N; eauto].
    - intros db n t o _ T [P1 P2]. split; [|intros a td K; apply set_present; eauto]. intros x a d H.
      destruct (qname_eq_dec x n) as [->|N]; [|rewrite qget_qset_other in H by exact N; eauto].
      rewrite qget_qset_same in H. destruct o as [q|]; [|discriminate]. injection H as -> <-. split; [reflexivity|].
      apply typedef_alias_some in T as (? & ? & ? & ? & ? & td' & _ & _ & _ & K & _). eauto.
    - intros db q _ [P1 P2]. split; [|intros a td K; apply set_present; eauto]. intros t a d H.
      destruct (qname_eq_dec t q) as [->|N]; [rewrite qget_qset_same in H; discriminate | rewrite qget_qset_other in H by exact N; eauto].
    - intros db n f l st _ _ S [P1 P2]. split; [|intros a td K; apply set_present; eauto]. intros t a d H.
      destruct (qname_eq_dec t n) as [->|N]; [rewrite qget_qset_same in H; destruct S as [-> | ->]; discriminate | rewrite qget_qset_other in H by exact N; eauto]. }
  destruct P as [P1 P2]. intros t a d H. destruct (P1 _ _ _ H) as (-> & td & K). split; [reflexivity|]. eauto.
Qed.

Lemma ingest_types_total db apis : (exists r, ingest_types db apis = PoOk r) \/ ingest_types db apis = PoPanic.
Proof.
  revert db. induction apis as [|x apis IH]; intros db; [left; exists db; reflexivity|]. destruct x as [n t|n|n f|n]; cbn [ingest_types]; try apply IH.
  assert (T : (exists o, typedef_alias t = PoOk o) \/ typedef_alias t = PoPanic).
  { unfold typedef_alias. destruct t as [l i a| | | | |]; eauto. destruct (path_name l i) as [q|]; eauto. destruct (kt_get q) as [td|]; eauto.
    destruct (td_path td []) as [l' i' a'| | | | |]; eauto. destruct (path_name l' i'); eauto. }
  destruct T as [(o & ->)| ->]; cbn [pobind]; [apply IH | auto].
Qed.
Lemma get_field_types_total f : (exists r, get_field_types f = PoOk r) \/ get_field_types f = PoPanic.
Proof.
  induction f as [|[o t] f IH]; cbn [get_field_types]; [eauto|]. destruct t as [l i a| | | | |]; auto.
  destruct (path_name l i); auto. destruct IH as [(r & ->)| ->]; cbn [pobind]; eauto.
Qed.
Lemma ingest_structs_total db apis : (exists r, ingest_structs db apis = PoOk r) \/ ingest_structs db apis = PoPanic.
Proof.
  revert db. induction apis as [|x apis IH]; intros db; [left; exists db; reflexivity|]. destruct x as [n t|n|n f|n]; cbn [ingest_structs]; try apply IH.
  unfold ingest_struct. destruct (get_field_types_total f) as [(l & ->)| ->]; cbn [pobind]; [apply IH | auto].
Qed.

Lemma new_from_apis_cases bl reqs apis : new_from_apis bl reqs apis = PoPanic \/
  exists db2, filled bl apis db2 /\
    new_from_apis bl reqs apis = satisfy (pod_fuel db2 (rev (map new_from_cpp_name reqs))) db2 (rev (map new_from_cpp_name reqs)).
Proof.
  unfold new_from_apis, filled.
  destruct (ingest_types_total (fold_left (fun m b => qset (new_from_cpp_name b) (PsUnsafe, []) m) bl base_db) apis) as [(db1 & E)|E];
    rewrite E; cbn [pobind]; [|auto].
  destruct (ingest_structs_total db1 apis) as [(db2 & E2)|E2]; rewrite E2; cbn [pobind]; [|auto].
  right. exists db2. split; [exists db1; auto | reflexivity].
Qed.
