(** C65: what the analysis of a struct records. *)
From Verif Require Import Base QNamesModel KnownTypesModel ApiModel TypesModel TypesSpec ConcreteNamesModel TypeConverterModel
  ByValueModel ByValueProofs ByValueProps.

(** The fields in order, each with the outcome of converting its type; the registry of instantiations is
    handed from one to the next. *)
Fixpoint conversions (conv : concretes -> ty -> concretes * out annotated) (cs : concretes) (fields : list bindgen_field)
  : list (bindgen_field * out annotated) :=
  match fields with
  | [] => []
  | f :: r => (f, snd (conv cs (bf_ty f))) :: conversions conv (fst (conv cs (bf_ty f))) r
  end.
(** bindgen's names for base classes and for padding. *)
Definition is_base (f : bindgen_field) : Prop := exists id rest, bf_name f = Some id /\ id = "_base" +++ rest.
Definition is_padding (f : bindgen_field) : Prop := exists id rest, bf_name f = Some id /\ id = "__bindgen_padding" +++ rest.
Definition is_blob (f : bindgen_field) : Prop := bf_name f = Some "_bindgen_opaque_blob".

Lemma name_starts_base f p : name_starts p (bf_name f) = true <-> exists id rest, bf_name f = Some id /\ id = p +++ rest.
Proof.
  unfold name_starts. destruct (bf_name f) as [id|].
  - rewrite starts_with_spec. split; [intros (r & ->); eauto | intros (i & r & E & ->); injection E as ->; eauto].
  - split; [discriminate | intros (? & ? & ? & _); discriminate].
Qed.

Lemma fold_qinsert_In l : forall d q, In q (fold_left (fun d q => qinsert q d) l d) <-> In q l \/ In q d.
Proof.
  induction l as [|x l IH]; intros d q; cbn; [intuition|]. rewrite IH, qinsert_In. intuition.
Qed.

Lemma ex_cons (P : bindgen_field -> annotated -> Prop) f a (r : list (bindgen_field * out annotated)) :
  (exists f0 a0, In (f0, OOk a0) ((f, OOk a) :: r) /\ P f0 a0) <-> P f a \/ exists f0 a0, In (f0, OOk a0) r /\ P f0 a0.
Proof.
  split.
  - intros (f0 & a0 & [E|I] & H); [injection E as <- <-; auto | right; eauto].
  - intros [H|(f0 & a0 & I & H)]; [exists f, a; split; [left; reflexivity | exact H] | exists f0, a0; split; [right; exact I | exact H]].
Qed.
Lemma ex_cons_err (P : bindgen_field -> annotated -> Prop) f e (r : list (bindgen_field * out annotated)) :
  (exists f0 a0, In (f0, OOk a0) ((f, OErr e) :: r) /\ P f0 a0) <-> exists f0 a0, In (f0, OOk a0) r /\ P f0 a0.
Proof.
  split.
  - intros (f0 & a0 & [E|I] & H); [discriminate | eauto].
  - intros (f0 & a0 & I & H). exists f0, a0. split; [right; exact I | exact H].
Qed.

Definition kept (f : bindgen_field) : Prop := ~ is_base f /\ ~ is_padding f.
Lemma kept_iff f : kept f <-> name_starts "_base" (bf_name f) || name_starts "__bindgen_padding" (bf_name f) = false.
Proof.
  unfold kept, is_base, is_padding. rewrite <- !name_starts_base, orb_false_iff, !not_true_iff_false. reflexivity.
Qed.

Definition step_of (f : bindgen_field) (a : annotated) (dd : list qname) (acc : fields_out) : fields_out :=
  FO (fold_left (fun d q => qinsert q d) (ann_deps a) (fo_deps acc)) (fold_left (fun d q => qinsert q d) dd (fo_def_deps acc))
     (fo_info acc ++ [FI (ann_ty a) (ann_kind a) (match bf_name f with Some id => String.eqb id "_bindgen_opaque_blob" | None => false end)])
     (fo_extra acc ++ ann_extra a) (fo_errors acc).

Lemma field_types_cons conv f fields cs acc cs' fo : get_struct_field_types conv cs (f :: fields) acc = (cs', OOk fo) ->
  exists cs1, fst (conv cs (bf_ty f)) = cs1 /\
  ((exists e, snd (conv cs (bf_ty f)) = OErr e /\
     get_struct_field_types conv cs1 fields (FO (fo_deps acc) (fo_def_deps acc) (fo_info acc) (fo_extra acc) (fo_errors acc ++ [e])) = (cs', OOk fo)) \/
   (exists a, snd (conv cs (bf_ty f)) = OOk a /\ ~ kept f /\
     get_struct_field_types conv cs1 fields (FO (fo_deps acc) (fo_def_deps acc) (fo_info acc) (fo_extra acc ++ ann_extra a) (fo_errors acc)) = (cs', OOk fo)) \/
   (exists a dd, snd (conv cs (bf_ty f)) = OOk a /\ kept f /\ (forall d, In d dd <-> refers_to (ann_ty a) d) /\
     get_struct_field_types conv cs1 fields (step_of f a dd acc) = (cs', OOk fo))).
Proof.
  cbn [get_struct_field_types]. destruct (conv cs (bf_ty f)) as [cs1 o] eqn:C. cbn [fst snd]. intros H. exists cs1. split; [reflexivity|].
  destruct o as [a|e| |]; try discriminate; [|left; eauto]. right.
  destruct (name_starts "_base" (bf_name f) || name_starts "__bindgen_padding" (bf_name f)) eqn:K.
  - left. exists a. split; [reflexivity|]. split; [rewrite kept_iff; congruence | exact H].
  - right. exists a. apply kept_iff in K.
    destruct (ann_ty a) as [l i ar| | | | |] eqn:T.
    1: destruct (path_name l i) as [q|] eqn:P; [|discriminate]; exists [q].
    2-6: exists [].
    all: split; [reflexivity|]; split; [exact K|]; split; [|unfold step_of; rewrite T; exact H].
    { intros d. rewrite <- (path_name_spec l i ar d), P. cbn. split; [intros [->|[]]; reflexivity | intros E; injection E as ->; auto]. }
    all: intros d; split; [intros [] | intros R; inversion R].
Qed.

(** What the walk over the fields gathers: each conversion is accounted for. *)
Lemma field_types_spec conv : forall fields cs acc cs' fo, get_struct_field_types conv cs fields acc = (cs', OOk fo) ->
  (forall d, In d (fo_deps fo) <-> In d (fo_deps acc) \/
     exists f a, In (f, OOk a) (conversions conv cs fields) /\ kept f /\ In d (ann_deps a)) /\
  (forall d, In d (fo_def_deps fo) <-> In d (fo_def_deps acc) \/
     exists f a, In (f, OOk a) (conversions conv cs fields) /\ kept f /\ refers_to (ann_ty a) d) /\
  (forall t k b, In (FI t k b) (fo_info fo) <-> In (FI t k b) (fo_info acc) \/
     exists f a, In (f, OOk a) (conversions conv cs fields) /\ kept f /\ t = ann_ty a /\ k = ann_kind a /\ (b = true <-> is_blob f)) /\
  (forall x, In x (fo_extra fo) <-> In x (fo_extra acc) \/ exists f a, In (f, OOk a) (conversions conv cs fields) /\ In x (ann_extra a)) /\
  (forall e, In e (fo_errors fo) <-> In e (fo_errors acc) \/ exists f, In (f, OErr e) (conversions conv cs fields)).
Proof.
  induction fields as [|f fields IH]; intros cs acc cs' fo H.
  - injection H as _ <-. cbn [conversions]. repeat split; intros X; try (left; exact X); destruct X as [X|X]; try exact X;
      [destruct X as (? & ? & [] & _) | destruct X as (? & ? & [] & _) | destruct X as (? & ? & [] & _) | destruct X as (? & ? & [] & _) | destruct X as (? & [])].
  - apply field_types_cons in H as (cs1 & E1 & H). cbn [conversions]. rewrite E1.
    destruct H as [(e & E2 & H)|[(a & E2 & K & H)|(a & dd & E2 & K & D & H)]]; rewrite E2;
      apply IH in H as (I1 & I2 & I3 & I4 & I5); unfold step_of in *; cbn [fo_deps fo_def_deps fo_info fo_extra fo_errors] in *.
    + split; [intros d; rewrite ex_cons_err; apply I1|]. split; [intros d; rewrite ex_cons_err; apply I2|].
      split; [intros t k b; rewrite ex_cons_err; apply I3|]. split; [intros x; rewrite ex_cons_err; apply I4|].
      intros e0. rewrite I5, in_app_iff. cbn [In]. split.
      * intros [[X|[<-|[]]]|(g & X)]; [auto | right; exists f; auto | right; exists g; auto].
      * intros [X|(g & [X|X])]; [auto | injection X as _ ->; auto | right; eauto].
    + split; [intros d; rewrite ex_cons, I1; tauto|]. split; [intros d; rewrite ex_cons, I2; tauto|].
      split; [intros t k b; rewrite ex_cons, I3; tauto|]. split; [intros x; rewrite ex_cons, I4, in_app_iff; tauto|].
      intros e0. rewrite I5. cbn [In]. split; (intros [X|(g & X)]; [auto|]).
      * right; exists g; auto.
      * destruct X as [X|X]; [discriminate | right; eauto].
    + split; [intros d; rewrite ex_cons, I1, fold_qinsert_In; tauto|].
      split; [intros d; rewrite ex_cons, I2, fold_qinsert_In, D; tauto|].
      split; [|split; [intros x; rewrite ex_cons, I4, in_app_iff; tauto|]].
      * intros t k b. rewrite ex_cons, I3, in_app_iff. cbn [In].
        assert (B : (match bf_name f with Some id => String.eqb id "_bindgen_opaque_blob" | None => false end) = true <-> is_blob f).
        { unfold is_blob. destruct (bf_name f) as [id|]; [rewrite String.eqb_eq; split; congruence | split; discriminate]. }
        set (bb := match bf_name f with Some id => String.eqb id "_bindgen_opaque_blob" | None => false end) in *.
        split.
        -- intros [[X|[X|[]]]|X]; [tauto | | tauto]. injection X as <- <- <-. right. left. tauto.
        -- intros [X|[(_ & -> & -> & X)|X]]; [tauto | | tauto]. left. right. left. f_equal.
           destruct b, bb; try reflexivity; exfalso; intuition discriminate.
      * intros e0. rewrite I5. cbn [In]. split; (intros [X|(g & X)]; [auto|]).
        -- right; exists g; auto.
        -- destruct X as [X|X]; [discriminate | right; eauto].
Qed.

(** [f] is the field bindgen writes for base class [q]. *)
Definition base_field (f : bindgen_field) (q : qname) : Prop := is_base f /\ refers_to (bf_ty f) q.

Lemma bases_spec : forall fields m, get_bases fields = OOk m ->
  (forall q b, In (q, b) m -> exists f, In f fields /\ base_field f q /\ b = bf_public f) /\
  (forall f q, In f fields -> base_field f q -> exists b, In (q, b) m).
Proof.
  induction fields as [|f fields IH]; intros m H; cbn [get_bases] in H; [injection H as <-; split; intros ? ? []|].
  assert (SKIP : (forall q, ~ base_field f q) -> get_bases fields = OOk m ->
    (forall q b, In (q, b) m -> exists g, In g (f :: fields) /\ base_field g q /\ b = bf_public g) /\
    (forall g q, In g (f :: fields) -> base_field g q -> exists b, In (q, b) m)).
  { intros N R. destruct (IH m R) as [I1 I2]. split.
    - intros q b X. destruct (I1 q b X) as (g & G & Y). exists g. split; [right; exact G | exact Y].
    - intros g q [<-|G] Y; [destruct (N q Y) | eauto]. }
  destruct (bf_ty f) as [l i a| | | | |] eqn:T; try (apply SKIP; [intros q [_ R]; rewrite T in R; inversion R | exact H]).
  destruct (name_starts "_base" (bf_name f)) eqn:N.
  2:{ apply SKIP; [|exact H]. intros q [B _]. apply name_starts_base in B. congruence. }
  apply name_starts_base in N.
  destruct (path_name l i) as [p|] eqn:P; [|discriminate]. destruct (get_bases fields) as [m'| | |] eqn:G; try discriminate.
  injection H as <-. destruct (IH m' eq_refl) as [I1 I2].
  assert (BF : base_field f p) by (split; [exact N | rewrite T; apply path_name_spec, P]).
  assert (UN : forall q, base_field f q -> q = p).
  { intros q [_ R]. rewrite T in R. apply (path_name_spec l i a) in R. congruence. }
  destruct (qget p m') as [bp|] eqn:Q.
  - apply qget_In in Q. split.
    + intros q b X. destruct (I1 q b X) as (g & Gg & Y). exists g. split; [right; exact Gg | exact Y].
    + intros g q [<-|Gg] Y; [|eauto]. rewrite (UN q Y). eauto.
  - split.
    + intros q b [X|X]; [injection X as <- <-; exists f; split; [left; reflexivity | auto]|].
      destruct (I1 q b X) as (g & Gg & Y). exists g. split; [right; exact Gg | exact Y].
    + intros g q [<-|Gg] Y; [rewrite (UN q Y); eexists; left; reflexivity|]. destruct (I2 g q Gg Y) as (b & X). exists b. right. exact X.
Qed.

Lemma field_types_total conv : forall fields cs acc cs' fo, get_struct_field_types conv cs fields acc = (cs', OOk fo) ->
  forall f o, In (f, o) (conversions conv cs fields) -> (exists a, o = OOk a) \/ exists e, o = OErr e.
Proof.
  induction fields as [|f fields IH]; intros cs acc cs' fo H g o I; [destruct I|].
  apply field_types_cons in H as (cs1 & E1 & H). cbn [conversions] in I. rewrite E1 in I.
  destruct H as [(e & E2 & H)|[(a & E2 & K & H)|(a & dd & E2 & K & D & H)]]; rewrite E2 in I;
    (destruct I as [I|I]; [injection I as <- <-; eauto | eapply IH; eauto]).
Qed.

(** * C65 *)
Section Struct.
Variables (db : pod_db) (conv : concretes -> ty -> concretes * out annotated) (cs : concretes) (allowlisted : string -> bool).

Lemma analyze_inv fatal n g rv fields cs' pa extra :
  analyze_struct db conv cs allowlisted fatal n g rv fields = (cs', OOk (pa, extra)) ->
  fatal = None /\ exists m fo, get_bases fields = OOk m /\ get_struct_field_types conv cs fields (FO [] [] [] [] []) = (cs', OOk fo) /\
    pa_bases pa = map fst m /\ pa_castable pa = filter (fun b => allowlisted (to_cpp_name b)) (map fst (filter snd m)) /\
    pa_field_deps pa = fo_deps fo /\ pa_field_def_deps pa = fo_def_deps fo /\ pa_fields pa = fo_info fo /\ pa_generics pa = g /\
    extra = fo_extra fo /\
    pa_kind pa = (if existsb fi_opaque (fo_info fo) then Opaque else if is_pod db n then Pod else NonPod) /\
    (pa_kind pa = Pod -> rv = false /\ fo_errors fo = []).
Proof.
  unfold analyze_struct. destruct fatal; [discriminate|]. intros H. split; [reflexivity|].
  destruct (get_bases fields) as [m| | |]; try discriminate. exists m.
  destruct (get_struct_field_types conv cs fields (FO [] [] [] [] [])) as [cs1 [fo| | |]]; try discriminate. cbn [tbind] in H.
  exists fo. destruct (existsb fi_opaque (fo_info fo)) eqn:O; [|destruct (is_pod db n) eqn:P; [destruct rv; [discriminate|]; destruct (fo_errors fo) eqn:ER; [|discriminate]|]].
  all: injection H as <- <- <-; cbn; repeat (split; [reflexivity|]); auto; discriminate.
Qed.

(** The kind follows the by-value checker, except for structs which bindgen could not describe; a struct
    is called POD only if every field could be converted and none is an rvalue reference. *)
Theorem c65_kind : forall fatal n g rv fields cs' pa extra,
  analyze_struct db conv cs allowlisted fatal n g rv fields = (cs', OOk (pa, extra)) ->
  fatal = None /\
  (pa_kind pa = Opaque <-> exists f a, In (f, OOk a) (conversions conv cs fields) /\ is_blob f) /\
  (pa_kind pa = Pod -> is_pod db n = true /\ rv = false /\ forall f o, In (f, o) (conversions conv cs fields) -> exists a, o = OOk a) /\
  (pa_kind pa = NonPod -> is_pod db n = false) /\ pa_kind pa <> Abstract.
Proof.
  intros fatal n g rv fields cs' pa extra H. apply analyze_inv in H as (F & m & fo & _ & T & _ & _ & _ & _ & _ & _ & _ & K & KP).
  split; [exact F|]. destruct (field_types_spec _ _ _ _ _ _ T) as (_ & _ & I3 & _ & I5).
  assert (O : existsb fi_opaque (fo_info fo) = true <-> exists f a, In (f, OOk a) (conversions conv cs fields) /\ is_blob f).
  { rewrite existsb_exists. split.
    - intros ([t k b] & I & B). cbn in B. subst b. apply I3 in I as [[]|(f & a & I & _ & _ & _ & B)]. exists f, a. tauto.
    - intros (f & a & I & B). exists (FI (ann_ty a) (ann_kind a) true). split; [|reflexivity]. apply I3. right. exists f, a.
      split; [exact I|]. split; [|tauto]. unfold kept, is_base, is_padding, is_blob in *.
      split; intros (id & r & E & Q); rewrite B in E; injection E as <-; discriminate. }
  split; [|split; [|split]].
  - rewrite <- O, K. destruct (existsb _ _); [tauto|]. destruct (is_pod db n); split; discriminate.
  - intros P. destruct (KP P) as [-> NE]. rewrite K in P. destruct (existsb _ _); [discriminate|]. destruct (is_pod db n); [|discriminate].
    split; [reflexivity|]. split; [reflexivity|]. intros f o I. destruct (field_types_total _ _ _ _ _ _ T f o I) as [X|(e & ->)]; [exact X|].
    exfalso. assert (Y : In e (fo_errors fo)) by (apply I5; right; eauto). rewrite NE in Y. destruct Y.
  - intros P. rewrite K in P. destruct (existsb _ _); [discriminate|]. destruct (is_pod db n); [discriminate | reflexivity].
  - rewrite K. destruct (existsb _ _); [discriminate|]. destruct (is_pod db n); discriminate.
Qed.

(** A POD struct with an rvalue reference field, or with a field that could not be converted, is
    refused rather than given a wrong layout. *)
Theorem c65_bad_pod_refused : forall n g rv fields cs' pa extra,
  analyze_struct db conv cs allowlisted None n g rv fields = (cs', OOk (pa, extra)) ->
  is_pod db n = true -> rv = true \/ (exists f e, In (f, OErr e) (conversions conv cs fields)) -> pa_kind pa = Opaque.
Proof.
  intros n g rv fields cs' pa extra H P B. assert (Q := c65_kind _ _ _ _ _ _ _ _ H). destruct Q as (_ & _ & QP & QN & QA).
  destruct (pa_kind pa); auto; try congruence.
  - destruct (QP eq_refl) as (_ & R & C). destruct B as [->|(f & e & I)]; [discriminate|]. destruct (C f _ I) as (a & X). discriminate.
  - assert (X := QN eq_refl). congruence.
Qed.

(** What is recorded about fields: dependencies and types of all fields other than bases and padding,
    whether or not they are public; and every new instantiation. *)
Theorem c65_fields_recorded : forall fatal n g rv fields cs' pa extra,
  analyze_struct db conv cs allowlisted fatal n g rv fields = (cs', OOk (pa, extra)) ->
  (forall d, In d (pa_field_deps pa) <->
     exists f a, In (f, OOk a) (conversions conv cs fields) /\ ~ is_base f /\ ~ is_padding f /\ In d (ann_deps a)) /\
  (forall d, In d (pa_field_def_deps pa) <->
     exists f a, In (f, OOk a) (conversions conv cs fields) /\ ~ is_base f /\ ~ is_padding f /\ refers_to (ann_ty a) d) /\
  (forall f a, In (f, OOk a) (conversions conv cs fields) -> ~ is_base f -> ~ is_padding f ->
     exists i, In i (pa_fields pa) /\ fi_ty i = ann_ty a /\ fi_kind i = ann_kind a) /\
  (forall x, In x extra <-> exists f a, In (f, OOk a) (conversions conv cs fields) /\ In x (ann_extra a)).
Proof.
  intros fatal n g rv fields cs' pa extra H. apply analyze_inv in H as (F & m & fo & _ & T & _ & _ & -> & -> & -> & _ & -> & _ & _).
  destruct (field_types_spec _ _ _ _ _ _ T) as (I1 & I2 & I3 & I4 & _). unfold kept in *. cbn [fo_deps fo_def_deps fo_info fo_extra] in *.
  split; [|split; [|split]].
  - intros d. rewrite I1. split; [intros [[]|(f & a & X)]; exists f, a; tauto | intros (f & a & X); right; exists f, a; tauto].
  - intros d. rewrite I2. split; [intros [[]|(f & a & X)]; exists f, a; tauto | intros (f & a & X); right; exists f, a; tauto].
  - intros f a I B P. set (b := match bf_name f with Some id => String.eqb id "_bindgen_opaque_blob" | None => false end).
    exists (FI (ann_ty a) (ann_kind a) b). split; [|auto]. apply I3. right. exists f, a.
    split; [exact I|]. split; [auto|]. split; [reflexivity|]. split; [reflexivity|]. unfold b, is_blob.
    destruct (bf_name f) as [id|]; [rewrite String.eqb_eq; split; congruence | split; discriminate].
  - intros x. rewrite I4. split; [intros [[]|X]; exact X | auto].
Qed.

(** The bases are the fields bindgen writes for them; casts are offered only to public, allowlisted ones. *)
Theorem c65_bases : forall fatal n g rv fields cs' pa extra,
  analyze_struct db conv cs allowlisted fatal n g rv fields = (cs', OOk (pa, extra)) ->
  (forall q, In q (pa_bases pa) <-> exists f, In f fields /\ is_base f /\ refers_to (bf_ty f) q) /\
  (forall q, In q (pa_castable pa) -> In q (pa_bases pa) /\ allowlisted (to_cpp_name q) = true /\
     exists f, In f fields /\ is_base f /\ refers_to (bf_ty f) q /\ bf_public f = true) /\
  (forall q, In q (pa_bases pa) -> allowlisted (to_cpp_name q) = true ->
     (forall f, In f fields -> is_base f -> refers_to (bf_ty f) q -> bf_public f = true) -> In q (pa_castable pa)).
Proof.
  intros fatal n g rv fields cs' pa extra H. apply analyze_inv in H as (F & m & fo & B & _ & -> & -> & _).
  destruct (bases_spec _ _ B) as [B1 B2]. split; [|split].
  - intros q. split.
    + intros I. apply in_map_iff in I as ([q' b] & E & I). cbn in E. subst q'. destruct (B1 q b I) as (f & I' & [X Y] & _). eauto.
    + intros (f & I & X & Y). destruct (B2 f q I (conj X Y)) as (b & J). apply in_map_iff. exists (q, b). auto.
  - intros q I. apply filter_In in I as [I A]. apply in_map_iff in I as ([q' b] & E & I). cbn in E. subst q'.
    apply filter_In in I as [I P]. cbn in P. subst b. split; [apply in_map_iff; exists (q, true); auto|]. split; [exact A|].
    destruct (B1 q true I) as (f & I' & [X Y] & Z). eauto.
  - intros q I A P. apply in_map_iff in I as ([q' b] & E & I). cbn in E. subst q'. apply filter_In. split; [|exact A].
    apply in_map_iff. exists (q, b). split; [reflexivity|]. apply filter_In. split; [exact I|]. cbn.
    destruct (B1 q b I) as (f & I' & [X Y] & ->). eapply P; eauto.
Qed.
End Struct.
Print Assumptions c65_kind. Print Assumptions c65_bad_pod_refused. Print Assumptions c65_fields_recorded. Print Assumptions c65_bases.

(** A conversion that keeps the type and depends on its name. *)
Definition conv0 (cs : concretes) (t : ty) : concretes * out annotated :=
  (cs, match t with
       | TOther s => OErr (EOther s)
       | TPath l i _ => match path_name l i with Some q => OOk (Ann t [q] [] TkRegular) | None => OPanic end
       | _ => OOk (Ann t [] [] TkRegular)
       end).
Definition fields0 : list bindgen_field :=
  [BF (Some "_base") true (TPath ["root"] "Pub" []); BF (Some "_base_1") false (TPath ["root"] "Priv" []);
   BF (Some "x") false (TPath ["root"] "Part" []); BF (Some "__bindgen_padding_0") false (TArray (TPath [] "u8" []) "3")].
Example c65_nonvacuous : exists cs' pa, analyze_struct base_db conv0 [] (fun s => String.eqb s "Pub") None (QN [] "S") 0 true fields0 = (cs', OOk (pa, [])) /\
  pa_kind pa = NonPod /\ pa_bases pa = [QN [] "Pub"; QN [] "Priv"] /\ pa_castable pa = [QN [] "Pub"] /\ pa_field_deps pa = [QN [] "Part"].
Proof. eexists. eexists. split; [vm_compute; reflexivity|]. vm_compute. auto. Qed.

(** C14, at the level of the kinds: a struct which bindgen could not describe is opaque, yet counts as
    POD for a struct that holds it. *)
Theorem c14_opaque_refuted : exists db pa pa' x x', 
  new_from_apis [] ["Out"] [PaStruct (QN [] "In") [(Some "_bindgen_opaque_blob", TArray (TPath [] "u8" []) "4")];
                            PaStruct (QN [] "Out") [(Some "i", TPath ["root"] "In" [])]] = PoOk db /\
  analyze_struct db conv0 [] (fun _ => true) None (QN [] "Out") 0 false [BF (Some "i") true (TPath ["root"] "In" [])] = x /\
  snd x = OOk (pa, []) /\ pa_kind pa = Pod /\ In (QN [] "In") (pa_field_def_deps pa) /\
  analyze_struct db conv0 [] (fun _ => true) None (QN [] "In") 0 false [BF (Some "_bindgen_opaque_blob") true (TArray (TPath [] "u8" []) "4")] = x' /\
  snd x' = OOk (pa', []) /\ pa_kind pa' = Opaque.
Proof.
  eexists. eexists. eexists. eexists. eexists. split; [vm_compute; reflexivity|]. split; [reflexivity|]. split; [vm_compute; reflexivity|].
  split; [reflexivity|]. split; [left; reflexivity|]. split; [reflexivity|]. split; [vm_compute; reflexivity | reflexivity].
Qed.
Print Assumptions c14_opaque_refuted.
