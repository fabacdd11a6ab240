(** C61-C64 and the part of C52 about types: what converting a type records, refuses, and whether it ends. *)
From Coq Require Import Relations.
From Verif Require Import Base QNamesModel KnownTypesModel KnownTypesProofs ApiModel NameCheckModel TypesModel TypesSpec
  TypedefsModel TypedefsProofs TypedefsProps CppTypesModel ConcreteNamesModel ConcreteNamesProofs TypeConverterModel
  TypeConverterProofs TypeConverterProps.

Lemma path_name_refers l id q : path_name l id = Some q <-> refers_to (TPath l id []) q.
Proof. apply path_name_spec. Qed.
Lemma refers_path_name l id args q : refers_to (TPath l id args) q -> path_name l id = Some q.
Proof. apply path_name_spec. Qed.

Definition known_name (q : qname) : Prop := exists td, In td known_table /\ In q (spellings td).
Lemma known_name_get q : known_name q <-> exists td, kt_get q = Some td.
Proof. split; intros (td & H); exists td; apply kt_get_iff; exact H. Qed.

Lemma rs_paths : forallb (fun td => let q := new_from_cpp_name (td_rs td) in
  match path_name (qn_ns q) (qn_item q) with Some p => qn_eqb p q | None => false end) known_table = true.
Proof. vm_compute. reflexivity. Qed.
Lemma rs_path td q : In td known_table -> path_name (qn_ns (new_from_cpp_name (td_rs td))) (qn_item (new_from_cpp_name (td_rs td))) = Some q ->
  In q (spellings td).
Proof.
  intros Ht H. assert (F := rs_paths). rewrite forallb_forall in F. specialize (F td Ht). cbv zeta in F.
  rewrite H in F. left. symmetry. apply qn_eqb_eq. exact F.
Qed.
Lemma root_to_output_name l i l' i' q : root_to_output l i = (l', i') -> path_name l i = Some q -> path_name l' i' = Some q.
Proof.
  intros R H. destruct l as [|f r]; cbn in R; injection R as <- <-.
  - destruct (String.eqb i "root") eqn:E; [|exact H]. rewrite path_name_cases, E in H. discriminate.
  - destruct (String.eqb f "root") eqn:E; [|exact H]. rewrite path_name_cases in *. rewrite E in H. exact H.
Qed.

(** The name of the path written for [tn]. *)
Lemma substituted_name tn lead id args l' i' q' :
  path_name lead id = Some tn -> substituted tn lead id args = TPath l' i' args -> path_name l' i' = Some q' ->
  match kt_get tn with Some td => In td known_table /\ In q' (spellings td) | None => q' = tn end.
Proof.
  intros N S P. unfold substituted in S. destruct (kt_get tn) as [td|] eqn:K.
  - unfold td_path in S. injection S as <- <-. apply kt_get_iff in K as [K1 K2]. split; [exact K1|].
    apply rs_path; assumption.
  - destruct (root_to_output lead id) as [l i] eqn:R. injection S as <- <-.
    rewrite (root_to_output_name _ _ _ _ _ R N) in P. congruence.
Qed.
Lemma to_type_path_name n l i ar q : to_type_path n = TPath l i ar -> path_name l i = Some q -> ar = [] /\ (known_name q \/ q = n).
Proof.
  unfold to_type_path, td_path. destruct (kt_get n) as [td|] eqn:K; intros H P; injection H as <- <- <-; (split; [reflexivity|]).
  - left. apply kt_get_iff in K as [K1 K2]. exists td. split; [exact K1 | apply rs_path; assumption].
  - right. rewrite path_name_cases in P. cbn in P. destruct n; cbn in P; congruence.
Qed.
Lemma resolves_name env orig lead id args tn deps rl ri ra :
  path_name lead id = Some orig -> resolves env orig lead id args tn deps rl ri ra ->
  path_name rl ri = Some tn /\ In tn deps /\ In orig deps.
Proof.
  intros N R. inversion R; subst.
  - split; [exact N | split; left; reflexivity].
  - split; [assumption|]. rewrite !qinsert_In. cbn. tauto.
Qed.

(** * C61: dependencies *)
(** [q] is accounted for by the recorded names [deps]: built in, recorded, or mentioned by what a
    recorded typedef stands for. *)
Definition accounted (env : tc_env) (deps : list qname) (q : qname) : Prop :=
  known_name q \/ In q deps \/
  exists al n tgt l id, In al deps /\ chain (tc_typedefs env) al n /\ In (n, tgt) (tc_typedefs env) /\
    path_in l id tgt /\ refers_to (TPath l id []) q.
Definition all_accounted env (t : ty) (deps : list qname) : Prop :=
  forall l id q, path_in l id t -> refers_to (TPath l id []) q -> accounted env deps q.

Lemma accounted_incl env d d' q : incl d d' -> accounted env d q -> accounted env d' q.
Proof.
  intros I [H|[H|(al & n & tgt & l & id & H & R)]]; [left; exact H | right; left; apply I, H|].
  right. right. exists al, n, tgt, l, id. split; [apply I, H | exact R].
Qed.
Lemma known_str : known_name (QN [] "str").
Proof. apply known_name_get. eexists. vm_compute. reflexivity. Qed.
Lemma known_pin : known_name (QN ["core"; "pin"] "Pin").
Proof. apply known_name_get. eexists. vm_compute. reflexivity. Qed.
Lemma accounted_pin env e d : all_accounted env e d -> all_accounted env (pin_mut e) d.
Proof.
  intros H l id q P R. unfold pin_mut in P. inversion P as [| ? ? ? ? ? a Ia Pa | | | ]; subst.
  - apply path_name_refers in R. rewrite path_name_cases in R. cbn in R. injection R as <-. left. exact known_pin.
  - destruct Ia as [<-|[]]. inversion Pa; subst. eapply H; eauto.
Qed.
Lemma generic_known q : cxx_generic_behavior q <> GNot -> known_name q.
Proof.
  intros H. apply known_name_get. unfold cxx_generic_behavior in H. destruct (kt_get q) as [td|]; [eauto|]. congruence.
Qed.

Theorem c61_dependencies_complete : forall fuel env ns cs c t cs' a,
  NoDup (map fst (tc_typedefs env)) ->
  convert_type fuel env ns cs c t = (cs', OOk a) -> all_accounted env (ann_ty a) (ann_deps a).
Proof.
  intros fuel env ns cs c t cs' a ND H. apply convert_type_rel in H. revert cs c t cs' a H.
  assert (X : (forall cs c t cs' a, conv_to env ns cs c t cs' a -> all_accounted env (ann_ty a) (ann_deps a)) /\
    (forall cs c l i ar cs' a, plain_to env ns cs c l i ar cs' a -> all_accounted env (ann_ty a) (ann_deps a)) /\
    (forall cs ar cs' la d x, args_to env ns cs ar cs' la d x -> forall e, In e la -> all_accounted env e d)).
  { apply conv_mutind.
    - auto.
    - intros cs c lead id args m e cs' i U C IH. cbn. destruct m; [apply accounted_pin; exact IH|].
      intros l1 id1 q P R. inversion P; subst. eapply IH; eauto.
    - intros cs c lead id args m e cs' i U E C IH l1 id1 q P R. cbn in P. inversion P; subst. eapply IH; eauto.
    - intros cs c lead id args cs' a b _ _ _ _ Pl IH A. destruct A; [exact IH | exact IH |].
      intros l1 id1 q1 P R. cbn in P. inversion P as [| |? ? ? ? ? P1| |]; subst.
      inversion P1 as [| ? ? ? ? ? ? Ia | | |]; subst; [|destruct Ia]. apply path_name_refers in R. rewrite path_name_cases in R. cbn in R. injection R as <-. left. exact known_str.
    - intros cs c m lt e cs' i C IH l1 id1 q P R. cbn in P. inversion P; subst. eapply IH; eauto.
    - intros cs c e n cs' i C IH l1 id1 q P R. cbn in P. inversion P; subst. eapply IH; eauto.
    - intros cs c m e cs' i E C IH l1 id1 q P R. cbn in P. inversion P; subst. eapply IH; eauto.
    - (* other *) intros cs c lead id args lead1 id1 orig other _ _ _ _ Rt _ l1 i1 q P R. cbn [ann_ty ann_deps] in *.
      right. right. pose proof (resolve_correct _ ND orig) as RC. rewrite Rt in RC. destruct RC as ((n & Ch & I) & _).
      exists orig, n, other, l1, i1.
      split; [left; reflexivity|]. split; [exact Ch|]. split; [exact I|]. split; [exact P | exact R].
    - (* simple *) intros cs c lead id args lead1 id1 orig tn deps rl ri l' i' _ N _ _ Rs S lx ix q P R. cbn [ann_ty ann_deps] in *.
      destruct (resolves_name _ _ _ _ _ _ _ _ _ _ N Rs) as (N' & I1 & I2).
      inversion P as [| ? ? ? ? ? ? Ia | | |]; subst; [|destruct Ia].
      assert (SN := substituted_name _ _ _ _ _ _ _ N' S (refers_path_name _ _ _ _ R)).
      destruct (kt_get tn) as [td|]; [left; exists td; exact SN | subst; right; left; exact I1].
    - (* concrete *)
      intros cs c lead id args lead1 id1 orig tn deps rl ri ra l' i' q0 def cs' n made _ N _ _ Rs _ S _ _ PN _ _ _ lx ix q P R.
      cbn [ann_ty ann_deps] in *. destruct (to_type_path_shape n) as (ln & ni & En). rewrite En in P.
      inversion P as [| ? ? ? ? ? ? Ia | | |]; subst; [|destruct Ia].
      destruct (to_type_path_name _ _ _ _ _ En (refers_path_name _ _ _ _ R)) as [_ [K | ->]]; [left; exact K|].
      right. left. apply qinsert_In. left; reflexivity.
    - (* generic *)
      intros cs c lead id args lead1 id1 orig tn deps rl ri ra l' i' cs' la d x k _ N _ _ Rs _ S G A IH CP lx ix q P R.
      cbn [ann_ty ann_deps] in *. destruct (resolves_name _ _ _ _ _ _ _ _ _ _ N Rs) as (N' & I1 & I2).
      inversion P as [| ? ? ? ? ? e Ie Pe | | |]; subst.
      + left. assert (SN := substituted_name _ _ _ _ _ _ _ N' S (refers_path_name _ _ _ _ R)).
        apply generic_known, known_name_get in G. destruct G as (td & G). rewrite G in SN. exists td. exact SN.
      + eapply accounted_incl; [|eapply IH; eauto]. apply incl_appr, incl_refl.
    - intros cs e [].
    - intros cs s r cs' l d x A IH e [<-|Ie]; [intros l1 id1 q P; inversion P | apply IH, Ie].
    - intros cs a r cs1 i cs' l d x _ C IHC A IHA e [<-|Ie] l1 id1 q P R.
      + eapply accounted_incl; [|eapply IHC; eauto]. apply incl_appl, incl_refl.
      + eapply accounted_incl; [|eapply IHA; eauto]. apply incl_appr, incl_refl. }
  exact (proj1 X).
Qed.
Print Assumptions c61_dependencies_complete.

(** The name a path in the source stands for is itself recorded (so that an item is dropped when its
    typedef is). *)
Theorem c61_named_type_recorded : forall fuel env ns cs c ns' id args cs' a,
  convert_type fuel env ns cs c (TPath ("root" :: ns') id args) = (cs', OOk a) -> In (QN ns' id) (ann_deps a).
Proof.
  intros fuel env ns cs c ns' id args cs' a H. apply convert_type_rel in H.
  assert (PN : path_name ("root" :: ns') id = Some (QN ns' id)) by (rewrite path_name_cases; reflexivity).
  inversion H as [? ? ? ? ? ? ? ? I| | |? ? ? ? ? ? a0 b _ _ _ _ P0 A0| | |]; subst; try discriminate.
  { destruct I; discriminate. }
  assert (D : ann_deps a = ann_deps a0) by (destruct A0; reflexivity). rewrite D. clear D A0.
  inversion P0; subst;
    (match goal with Q : qualify _ _ _ _ = COk _ |- _ => cbn in Q; injection Q as <- <- end);
    (match goal with Q : path_name ("root" :: ns') id = Some ?o |- _ => pose proof Q as Q0; rewrite PN in Q; injection Q as <- end);
    cbn [ann_deps]; try (left; reflexivity);
    (match goal with Q : resolves _ _ _ _ _ _ _ _ _ _ |- _ => destruct (resolves_name _ _ _ _ _ _ _ _ _ _ Q0 Q) as (_ & _ & I2) end).
  - exact I2.
  - apply qinsert_In. right. exact I2.
  - apply in_or_app. left. exact I2.
Qed.
Print Assumptions c61_named_type_recorded.

Definition deps_env : tc_env :=
  TCE [] [(QN ["n"] "H", TPtr true (TPath ["output"; "n"] "A" [])); (QN [] "S", TPath ["root"] "B" [])]
    [] [] [] (fun _ => false) (fun _ => false) (fun _ => false) (fun _ => true) (fun _ => false).
Example c61_nonvacuous :
  NoDup (map fst (tc_typedefs deps_env)) /\
  (exists a, snd (convert_type 9 deps_env [] [] OuterType (TPath ["root"; "std"] "unique_ptr" [TPath ["root"] "S" []])) = OOk a /\
     ann_ty a = TPath ["cxx"] "UniquePtr" [TPath ["output"] "B" []] /\
     ann_deps a = [QN ["std"] "unique_ptr"; QN [] "S"; QN [] "B"]) /\
  (exists a, snd (convert_type 9 deps_env [] [] OuterType (TPath ["root"; "n"] "H" [])) = OOk a /\
     ann_deps a = [QN ["n"] "H"] /\ path_in ["output"; "n"] "A" (ann_ty a)).
Proof.
  split; [repeat constructor; cbn; intuition discriminate|]. split.
  - eexists. split; [vm_compute; reflexivity|]. split; reflexivity.
  - eexists. split; [vm_compute; reflexivity|]. split; [reflexivity|]. repeat constructor.
Qed.

(** * C62: forward declarations *)
(** A use of [q] by value in a converted type: the path itself, or an argument of a container. *)
Inductive by_value (q : qname) : ty -> Prop :=
| bv_here l id args : refers_to (TPath l id args) q -> by_value q (TPath l id args)
| bv_arg l id args e : In e args -> by_value q e -> by_value q (TPath l id args).

(** Unless a pointer or reference is being converted, a type known only by a forward declaration never
    comes out by value; and it never comes out as the argument of a container. *)
Theorem c62_no_forward_declaration_by_value : forall fuel env ns cs c t cs' a q,
  ~ In (QN ["core"; "pin"] "Pin") (tc_forward env) ->
  convert_type fuel env ns cs c t = (cs', OOk a) -> In q (tc_forward env) ->
  (c <> WithinReference -> ~ by_value q (ann_ty a)) /\
  (forall l id args e, ann_ty a = TPath l id args -> In e args -> ~ by_value q e).
Proof.
  intros fuel env ns cs c t cs' a q NP H Q. apply convert_type_rel in H. revert cs c t cs' a H.
  set (good := fun (c : tc_ctx) (t : ty) =>
    (c <> WithinReference -> ~ by_value q t) /\
    (forall l id args e, t = TPath l id args -> In e args -> ~ by_value q e)).
  assert (NV : forall c t, (forall l i ar, t <> TPath l i ar) -> good c t).
  { intros c t N. split; [intros _ B; inversion B; subst; eapply N; reflexivity | intros; exfalso; eapply N; eauto]. }
  assert (X : (forall cs c t cs' a, conv_to env ns cs c t cs' a -> good c (ann_ty a)) /\
    (forall cs c l i ar cs' a, plain_to env ns cs c l i ar cs' a ->
        forall l id args e, ann_ty a = TPath l id args -> In e args -> ~ by_value q e) /\
    (forall cs ar cs' la d x, args_to env ns cs ar cs' la d x -> forall e, In e la -> ~ by_value q e)).
  { apply conv_mutind.
    - auto.
    - intros cs c lead id args m e cs' i U C IH. cbn [ann_ty]. destruct m; [|apply NV; congruence].
      assert (B0 : ~ by_value q (TRef true None (ann_ty i))) by (intros B; inversion B).
      split.
      + intros _ B. inversion B as [? ? ? R | ? ? ? e' I B']; subst.
        * apply refers_path_name in R. rewrite path_name_cases in R. cbn in R. injection R as <-. auto.
        * destruct I as [<-|[]]. auto.
      + intros l0 i0 a0 e0 E I. injection E as <- <- <-. destruct I as [<-|[]]. exact B0.
    - intros. apply NV. cbn. congruence.
    - intros cs c lead id args cs' a b _ _ _ _ Pl IH A. destruct A as [c a N | c a l i ar q' E N F D | c a l i ar q' E N F D].
      + apply NV, N.
      + split; [|exact IH]. intros C B. rewrite E in B. inversion B as [? ? ? R | ? ? ? e' I B']; subst.
        * apply refers_path_name in R. destruct F as [F|F]; [destruct c; try discriminate; congruence|].
          rewrite R in N. injection N as <-. contradiction.
        * eapply IH; eauto.
      + apply NV. cbn. congruence.
    - intros. apply NV. cbn. congruence.
    - intros. apply NV. cbn. congruence.
    - intros. apply NV. cbn. congruence.
    - intros cs c lead id args lead1 id1 orig other _ _ _ _ _ N l i ar e E. cbn in E. exfalso. eapply N; eauto.
    - intros cs c lead id args lead1 id1 orig tn deps rl ri l' i' _ _ _ _ _ _ l i ar e E I. injection E as <- <- <-. destruct I.
    - intros cs c lead id args lead1 id1 orig tn deps rl ri ra l' i' q0 def cs' n made _ _ _ _ _ _ _ _ _ _ _ _ _ l i ar e E I.
      cbn [ann_ty] in E. destruct (to_type_path_shape n) as (ln & ni & En). rewrite En in E. injection E as <- <- <-. destruct I.
    - intros cs c lead id args lead1 id1 orig tn deps rl ri ra l' i' cs' la d x k _ _ _ _ _ _ _ _ A IH _ l i ar e E I.
      injection E as <- <- <-. apply IH, I.
    - intros cs e [].
    - intros cs s r cs' l d x A IH e [<-|Ie]; [intros B; inversion B | apply IH, Ie].
    - intros cs a r cs1 i cs' l d x _ C IHC A IHA e [<-|Ie]; [apply (proj1 IHC); discriminate | apply IHA, Ie]. }
  exact (proj1 X).
Qed.
Print Assumptions c62_no_forward_declaration_by_value.

Definition fwd_env : tc_env :=
  TCE [] [] [QN [] "F"] [] [] (fun _ => false) (fun _ => false) (fun _ => false) (fun _ => true) (fun _ => false).
(** The hypotheses are met, by pointers and by containers; and what is refused. *)
Example c62_nonvacuous :
  ~ In (QN ["core"; "pin"] "Pin") (tc_forward fwd_env) /\ In (QN [] "F") (tc_forward fwd_env) /\
  snd (convert_type 9 fwd_env [] [] OuterType (TPtr true (TPath ["root"] "F" []))) =
    OOk (Ann (TPtr true (TPath ["output"] "F" [])) [QN [] "F"] [] TkPointer) /\
  snd (convert_type 9 fwd_env [] [] OuterType (TPath ["root"] "F" [])) = OErr (EOther "TypeContainingForwardDeclaration") /\
  snd (convert_type 9 fwd_env [] [] WithinReference (TPath ["root"; "std"] "unique_ptr" [TPath ["root"] "F" []])) =
    OErr (EOther "TypeContainingForwardDeclaration") /\
  snd (convert_type 9 fwd_env [] [] OuterType (TPath ["root"; "std"] "unique_ptr" [TPath ["root"] "B" []])) =
    OOk (Ann (TPath ["cxx"] "UniquePtr" [TPath ["output"] "B" []]) [QN ["std"] "unique_ptr"; QN [] "B"] [] TkRegular).
Proof. split; [cbn; intuition discriminate|]. split; [left; reflexivity|]. repeat split; vm_compute; reflexivity. Qed.

(** An array of a forward-declared type is let through, although its elements are used by value. *)
Theorem c62_array_elements_refuted : exists fuel env ns t a q n,
  In q (tc_forward env) /\ snd (convert_type fuel env ns [] OuterType t) = OOk a /\
  exists e, ann_ty a = TArray e n /\ by_value q e.
Proof.
  exists 9, fwd_env, [], (TArray (TPath ["root"] "F" []) "4"). eexists. exists (QN [] "F"), "4".
  split; [left; reflexivity|]. split; [vm_compute; reflexivity|]. eexists. split; [reflexivity|].
  constructor. constructor. right. reflexivity.
Qed.
Print Assumptions c62_array_elements_refuted.

(** * C63: template instantiations *)
Lemma get_made cs d cs' n b : get_templated_typename cs d = (cs', n, b) ->
  sget d cs' = Some n /\ (forall e m, sget e cs = Some m -> sget e cs' = Some m) /\
  (forall e, e <> d -> sget e cs' = sget e cs) /\
  (b = true -> sget d cs = None) /\ (b = false -> sget d cs = Some n).
Proof.
  unfold get_templated_typename. destruct (sget d cs) as [tn|] eqn:G; intros H.
  - injection H as <- <- <-. repeat split; auto; try discriminate.
  - cbv zeta in H. injection H as <- <- <-. split; [apply sget_sset_same|]. split.
    { intros e m He. rewrite sget_sset_other; [exact He | intros ->; congruence]. }
    split; [|split; [reflexivity|discriminate]]. intros e N. apply sget_sset_other. congruence.
Qed.

Definition extends (cs cs' : concretes) : Prop := forall d n, sget d cs = Some n -> sget d cs' = Some n.
(** No argument list anywhere, except that of the [Pin] of a mutable reference. *)
Inductive no_container : ty -> Prop :=
| nc_path l id : no_container (TPath l id [])
| nc_pin e : no_container e -> no_container (TPath ["core"; "pin"] "Pin" [TRef true None e])
| nc_ref m lt e : no_container e -> no_container (TRef m lt e)
| nc_ptr m e : no_container e -> no_container (TPtr m e)
| nc_array e n : no_container e -> no_container (TArray e n)
| nc_other s : no_container (TOther s)
| nc_nontype s : no_container (TNonType s).

Lemma no_container_pin e : no_container (pin_mut e) -> no_container e.
Proof. intros H. inversion H; subst. assumption. Qed.

Lemma pin_by_value_all : forallb (fun td => let q := new_from_cpp_name (td_rs td) in
  if qn_eqb q (QN ["core"; "pin"] "Pin") then match td_behavior td with RustByValue => true | _ => false end else true)
  known_table = true.
Proof. vm_compute. reflexivity. Qed.
Lemma pin_by_value td : In td known_table ->
  (qn_ns (new_from_cpp_name (td_rs td)), qn_item (new_from_cpp_name (td_rs td))) = (["core"; "pin"], "Pin") ->
  td_behavior td = RustByValue.
Proof.
  intros Ht E. assert (F := pin_by_value_all). rewrite forallb_forall in F. specialize (F td Ht). cbv zeta in F.
  assert (Q : new_from_cpp_name (td_rs td) = QN ["core"; "pin"] "Pin").
  { destruct (new_from_cpp_name (td_rs td)) as [n i]. cbn in E. injection E as -> ->. reflexivity. }
  rewrite Q, qn_eqb_refl in F. destruct (td_behavior td); congruence.
Qed.

(** Converting a type leaves the names already given alone. Every instantiation API it makes is for a
    spelling which had no name, and is registered under the C++ spelling of its Rust definition. If the
    result has no container in it, every spelling named on the way gets its API. *)
Theorem c63_instantiations_registered_partial : forall fuel env ns cs c t cs' a,
  convert_type fuel env ns cs c t = (cs', OOk a) ->
  extends cs cs' /\
  (forall n def rs, In (n, def, rs) (ann_extra a) ->
     sget def cs = None /\ sget def cs' = Some n /\ type_to_cpp (tc_names env) rs = COk def /\ In n (ann_deps a)) /\
  (no_container (ann_ty a) -> forall def n, sget def cs' = Some n -> sget def cs = None ->
     exists rs, In (n, def, rs) (ann_extra a)).
Proof.
  intros fuel env ns cs c t cs' a H. apply convert_type_rel in H. revert cs c t cs' a H.
  set (sound := fun (cs cs' : concretes) (a : annotated) => forall n def rs, In (n, def, rs) (ann_extra a) ->
     sget def cs = None /\ sget def cs' = Some n /\ type_to_cpp (tc_names env) rs = COk def /\ In n (ann_deps a)).
  set (complete := fun (cs cs' : concretes) (a : annotated) => no_container (ann_ty a) ->
     forall def n, sget def cs' = Some n -> sget def cs = None -> exists rs, In (n, def, rs) (ann_extra a)).
  assert (X : (forall cs c t cs' a, conv_to env ns cs c t cs' a -> extends cs cs' /\ sound cs cs' a /\ complete cs cs' a) /\
    (forall cs c l i ar cs' a, plain_to env ns cs c l i ar cs' a ->
       extends cs cs' /\ sound cs cs' a /\ complete cs cs' a) /\
    (forall cs ar cs' la d x, args_to env ns cs ar cs' la d x -> extends cs cs')).
  { apply conv_mutind.
    - auto.
    - intros cs c lead id args m e cs' i U C (E & S & K). split; [exact E|]. split; [exact S|].
      intros NC. apply K. destruct m; [apply no_container_pin; exact NC | inversion NC; assumption].
    - intros cs c lead id args m e cs' i U EP C (E & S & K). split; [exact E|]. split; [exact S|].
      intros NC. apply K. inversion NC; assumption.
    - intros cs c lead id args cs' a b _ _ _ _ Pl (E & S & K) A. split; [exact E|].
      destruct A as [c a N | c a l i ar q' Ea N F D | c a l i ar q' Ea N F D].
      + split; [exact S | exact K].
      + split; [exact S | exact K].
      + split; [exact S|]. intros _ def n. cbn [ann_extra]. inversion Pl; subst.
        * cbn. congruence.
        * cbn. congruence.
        * match goal with G : get_templated_typename _ _ = _ |- _ => apply get_made in G as (G1 & _ & G3 & G4 & G5) end.
          intros J1 J2. destruct (string_dec def def0) as [->|ND]; [|rewrite G3 in J1 by exact ND; congruence].
          rewrite G1 in J1. injection J1 as <-. destruct made; [eexists; left; reflexivity|].
          rewrite G5 in J2 by reflexivity. discriminate.
        * (* the converted path names [rust::Str], which is no container *)
          exfalso. cbn [ann_ty] in Ea. injection Ea as -> -> ->.
          match goal with Q : path_name lead1 id1 = Some orig, R : resolves _ _ _ _ _ _ _ _ _ _ |- _ =>
            destruct (resolves_name _ _ _ _ _ _ _ _ _ _ Q R) as (N' & _ & _) end.
          match goal with Q : substituted tn rl ri ra = _ |- _ => pose proof (substituted_name _ _ _ _ _ _ _ N' Q N) as SN end.
          match goal with Q : cxx_generic_behavior tn <> GNot |- _ => rename Q into G; pose proof (generic_known _ G) as GK end.
          apply known_name_get in GK as (td & GK). rewrite GK in SN. destruct SN as [T1 T2].
          unfold should_dereference_in_cpp, on_behavior in D. rewrite (kt_get_spelling _ _ T1 T2) in D.
          unfold cxx_generic_behavior in G. rewrite GK in G. destruct (td_behavior td); congruence.
    - intros cs c m lt e cs' i C (E & S & K). split; [exact E|]. split; [exact S|].
      intros NC. apply K. inversion NC; assumption.
    - intros cs c e n cs' i C (E & S & K). split; [exact E|]. split; [exact S|].
      intros NC. apply K. inversion NC; assumption.
    - intros cs c m e cs' i EP C (E & S & K). split; [exact E|]. split; [exact S|].
      intros NC. apply K. inversion NC; assumption.
    - intros. split; [intros ? ? ?; assumption|]. split; [intros ? ? ? [] | intros _ ? ?; congruence].
    - intros. split; [intros ? ? ?; assumption|]. split; [intros ? ? ? [] | intros _ ? ?; congruence].
    - intros cs c lead id args lead1 id1 orig tn deps rl ri ra l' i' q0 def cs' n made _ _ _ _ _ _ _ _ _ _ _ TC GT.
      apply get_made in GT as (G1 & G2 & G3 & G4 & G5). split; [exact G2|]. split.
      + intros n0 def0 rs I. cbn [ann_extra ann_deps] in *. destruct made; [|destruct I].
        destruct I as [I|[]]. injection I as <- <- <-. split; [apply G4; reflexivity|]. split; [exact G1|]. split; [exact TC|].
        apply qinsert_In. left; reflexivity.
      + intros _ def0 n0 J1 J2. cbn [ann_extra]. destruct (string_dec def0 def) as [->|ND]; [|rewrite G3 in J1 by exact ND; congruence].
        rewrite G1 in J1. injection J1 as <-. destruct made; [eexists; left; reflexivity|].
        rewrite G5 in J2 by reflexivity. discriminate.
    - intros cs c lead id args lead1 id1 orig tn deps rl ri ra l' i' cs' la d x k _ _ _ _ _ NE S G A IH _.
      split; [exact IH|]. split; [intros ? ? ? []|]. intros NC. cbn [ann_ty] in NC. exfalso.
      inversion NC; subst.
      + inversion A; subst; congruence.
      + unfold substituted in S. unfold cxx_generic_behavior in G.
        destruct (kt_get tn) as [td|] eqn:KG; [|congruence].
        unfold td_path in S. assert (S' := f_equal (fun t => match t with TPath l i _ => (l, i) | _ => ([], "") end) S).
        cbn in S'. apply kt_get_iff in KG as [G1 _]. rewrite (pin_by_value _ G1 S') in G. congruence.
    - intros cs d n E; exact E.
    - auto.
    - intros cs a r cs1 i cs' l d x _ C (E1 & _) A E2 dd n0 J. apply E2, E1, J. }
  exact (proj1 X).
Qed.
Print Assumptions c63_instantiations_registered_partial.

(** [unique_ptr<Foo<B>>] makes the name [Foo_B_AutocxxConcrete], but no API for it; and since the
    spelling now has a name, no later conversion makes one either. *)
Definition foo_b : ty := TPath ["root"] "Foo" [TPath ["root"] "B" []].
Theorem c63_instantiation_in_container_refuted : exists fuel env ns t cs' a def n,
  convert_type fuel env ns [] OuterType t = (cs', OOk a) /\
  sget def cs' = Some n /\ In n (ann_deps a) /\ ann_extra a = [] /\
  (exists a', convert_type fuel env ns cs' OuterType foo_b = (cs', OOk a') /\ In n (ann_deps a') /\ ann_extra a' = []) /\
  (exists cs1 a', convert_type fuel env ns [] OuterType foo_b = (cs1, OOk a') /\ ann_extra a' <> []).
Proof.
  exists 9, env0, [], (TPath ["root"; "std"] "unique_ptr" [foo_b]). eexists. eexists. exists "Foo<B>", (QN [] "Foo_B_AutocxxConcrete").
  split; [vm_compute; reflexivity|]. split; [vm_compute; reflexivity|].
  split; [vm_compute; tauto|]. split; [reflexivity|]. split.
  - eexists. split; [vm_compute; reflexivity|]. split; [vm_compute; tauto | reflexivity].
  - eexists. eexists. split; [vm_compute; reflexivity|]. discriminate.
Qed.
Print Assumptions c63_instantiation_in_container_refuted.

Example c63_nonvacuous : exists cs' a n def,
  convert_type 9 env0 [] [("Bar<int>", QN [] "Bar_int_AutocxxConcrete")] OuterType (TPtr true foo_b) = (cs', OOk a) /\
  no_container (ann_ty a) /\ sget def cs' = Some n /\ In (n, def, TPath ["output"] "Foo" [TPath ["root"] "B" []]) (ann_extra a).
Proof.
  eexists. eexists. exists (QN [] "Foo_B_AutocxxConcrete"), "Foo<B>". split; [vm_compute; reflexivity|]. split; [repeat constructor|].
  split; [vm_compute; reflexivity|]. left. reflexivity.
Qed.

(** * C64: conversion ends *)
Section Fuel.
Variable env : tc_env.
Variable ns : list string.

Definition finer (r1 r2 : concretes -> tc_ctx -> ty -> concretes * out annotated) : Prop :=
  forall cs c t, snd (r1 cs c t) <> OFuel -> r2 cs c t = r1 cs c t.

Lemma tbind_mono {A B} (x y : concretes * out A) (f g : concretes -> A -> concretes * out B) :
  (snd x <> OFuel -> y = x) -> (forall cs a, snd (f cs a) <> OFuel -> g cs a = f cs a) ->
  snd (tbind x f) <> OFuel -> tbind y g = tbind x f.
Proof.
  intros Hx Hf H. destruct x as [cs [a|e| |]]; cbn in H; try (rewrite Hx by (cbn; congruence); reflexivity).
  - rewrite Hx by (cbn; congruence). cbn. apply Hf, H.
Qed.
Lemma args_mono r1 r2 args : finer r1 r2 -> forall cs, snd (convert_args r1 cs args) <> OFuel ->
  convert_args r2 cs args = convert_args r1 cs args.
Proof.
  intros F. induction args as [|a r IH]; intros cs H; [reflexivity|].
  assert (G : forall t, snd (tbind (r1 cs WithinContainer t) (fun cs1 i =>
          tbind (convert_args r1 cs1 r) (fun cs2 r0 => let '(l, d, x) := r0 in
            (cs2, OOk (ann_ty i :: l, ann_deps i ++ d, ann_extra i ++ x))))) <> OFuel ->
     tbind (r2 cs WithinContainer t) (fun cs1 i =>
          tbind (convert_args r2 cs1 r) (fun cs2 r0 => let '(l, d, x) := r0 in
            (cs2, OOk (ann_ty i :: l, ann_deps i ++ d, ann_extra i ++ x)))) =
     tbind (r1 cs WithinContainer t) (fun cs1 i =>
          tbind (convert_args r1 cs1 r) (fun cs2 r0 => let '(l, d, x) := r0 in
            (cs2, OOk (ann_ty i :: l, ann_deps i ++ d, ann_extra i ++ x))))).
  { intros t. apply tbind_mono; [apply F|]. intros cs1 i. apply tbind_mono; [apply IH|]. reflexivity. }
  destruct a; cbn [convert_args] in *; try (apply G; exact H).
  revert H. apply tbind_mono; [apply IH | reflexivity].
Qed.
Lemma resolved_mono r1 r2 cs c tn deps l i args : finer r1 r2 ->
  snd (convert_resolved env r1 cs c tn deps l i args) <> OFuel ->
  convert_resolved env r2 cs c tn deps l i args = convert_resolved env r1 cs c tn deps l i args.
Proof.
  intros F. unfold convert_resolved. fold (substituted tn l i args).
  destruct (substituted_path tn l i args) as (l' & i' & ->). destruct args as [|a0 r]; [reflexivity|].
  destruct (cxx_generic_behavior tn); [reflexivity | | |]; (apply tbind_mono; [apply args_mono, F | reflexivity]).
Qed.
Lemma plain_mono r1 r2 cs c l i args : finer r1 r2 -> snd (convert_plain_path env ns r1 cs c l i args) <> OFuel ->
  convert_plain_path env ns r2 cs c l i args = convert_plain_path env ns r1 cs c l i args.
Proof.
  intros F. unfold convert_plain_path. destruct (qualify env ns l i) as [[l1 i1]|e|]; try reflexivity.
  destruct (path_name l1 i1) as [o|]; [|reflexivity].
  destruct (validate_ident_ok_for_cxx _ _ _); try reflexivity. destruct (tc_blocked env (to_cpp_name o)); [reflexivity|].
  destruct (resolve_typedef (tc_typedefs env) o) as [[t|]|n| | |]; try reflexivity.
  - destruct t; try reflexivity. destruct (path_name lead id); [|reflexivity]. apply resolved_mono, F.
  - apply resolved_mono, F.
Qed.
Lemma step_mono r1 r2 : finer r1 r2 -> finer (convert_step env ns r1) (convert_step env ns r2).
Proof.
  intros F cs c t. destruct t as [l i args|m lt e|m e|e n|s|s]; cbn [convert_step].
  - unfold convert_type_path. destruct (unwrap_marker unused_marker l i args); [apply F|].
    destruct (unwrap_marker opaque_marker l i args); [apply F|].
    destruct (unwrap_reference false l i args) as [[m e]|]; [apply tbind_mono; [apply F | reflexivity]|].
    destruct (unwrap_reference true l i args) as [[m e]|].
    + destruct (ensure_pointee e); [reflexivity|]. apply tbind_mono; [apply F | reflexivity].
    + unfold convert_actual_path. apply tbind_mono; [apply plain_mono, F | reflexivity].
  - apply tbind_mono; [apply F | reflexivity].
  - destruct (ensure_pointee e); [reflexivity|]. apply tbind_mono; [apply F | reflexivity].
  - apply tbind_mono; [apply F | reflexivity].
  - reflexivity.
  - reflexivity.
Qed.
Lemma fuel_step k : finer (convert_type k env ns) (convert_type (S k) env ns).
Proof.
  induction k as [|k IH].
  - intros cs c t H. cbn in H. congruence.
  - exact (step_mono _ _ IH).
Qed.
Lemma fuel_le k k' : k <= k' -> finer (convert_type k env ns) (convert_type k' env ns).
Proof.
  intros L. induction L as [|k' L IH]; intros cs c t H; [reflexivity|].
  rewrite fuel_step; [apply IH, H|]. rewrite IH by exact H. exact H.
Qed.

(** The names a type mentions, those without a module also taken relative to the current namespace. *)
Inductive named_by (t : ty) (q : qname) : Prop :=
| nb_plain l id : path_in l id t -> refers_to (TPath l id []) q -> named_by t q
| nb_relative id : path_in [] id t -> q = QN ns id -> named_by t q.
(** [b] is mentioned in the arguments of what the typedef [a] finally stands for. *)
Definition typedef_arguments (a : qname) (e : ty) : Prop := exists n l i args,
  chain (tc_typedefs env) a n /\ In (n, TPath l i args) (tc_typedefs env) /\ In e args.
Definition mentioned_in_arguments (b a : qname) : Prop := exists e, typedef_arguments a e /\ named_by e b.

Definition ends (t : ty) : Prop := exists fuel, forall cs c, snd (convert_type fuel env ns cs c t) <> OFuel.

Lemma tbind_ends {A B} (x : concretes * out A) (f : concretes -> A -> concretes * out B) :
  snd x <> OFuel -> (forall cs a, snd (f cs a) <> OFuel) -> snd (tbind x f) <> OFuel.
Proof. destruct x as [cs [a|e| |]]; cbn; intros; try discriminate; auto. Qed.
Lemma ends_le k k' t : k <= k' -> (forall cs c, snd (convert_type k env ns cs c t) <> OFuel) ->
  forall cs c, snd (convert_type k' env ns cs c t) <> OFuel.
Proof. intros L H cs c. rewrite (fuel_le k k' L); apply H. Qed.
Lemma confirm_ends gb l : confirm_payload env gb l <> OFuel.
Proof.
  induction l as [|[l0 i0 a0| | | | |] r IH]; cbn; try discriminate.
  destruct (path_name l0 i0) as [q|]; [|discriminate]. destruct (_ && _); [discriminate|]. destruct gb.
  - exact IH.
  - destruct (permissible_within_unique_ptr q); [exact IH|discriminate].
  - destruct (negb _); [discriminate|]. destruct a0; [exact IH|discriminate].
  - destruct (qn_ns q); [|discriminate]. destruct (negb _); [discriminate|]. destruct (tc_holder env (qn_item q)); discriminate.
Qed.
Lemma args_end args : Forall ends args -> exists k, forall cs, snd (convert_args (convert_type k env ns) cs args) <> OFuel.
Proof.
  induction 1 as [|a r (k1 & Ha) _ (k2 & IH)]; [exists 0; discriminate|]. exists (max k1 k2). intros cs.
  assert (R : forall cs, snd (convert_args (convert_type (max k1 k2) env ns) cs r) <> OFuel).
  { intros cs0. rewrite (args_mono (convert_type k2 env ns)); [apply IH | apply fuel_le; lia | apply IH]. }
  assert (A : forall cs c, snd (convert_type (max k1 k2) env ns cs c a) <> OFuel) by (apply (ends_le k1); [lia|exact Ha]).
  destruct a as [| | | | |s0]; cbn [convert_args].
  6: { apply tbind_ends; [apply R|]. intros cs1 [[? ?] ?]. discriminate. }
  all: apply tbind_ends; [apply A|]; intros cs1 i; apply tbind_ends; [apply R|]; intros cs2 [[? ?] ?]; discriminate.
Qed.

Hypothesis ND : NoDup (map fst (tc_typedefs env)).

Lemma resolved_ends tn deps l i args : Forall ends args ->
  exists k, forall cs c, snd (convert_resolved env (convert_type k env ns) cs c tn deps l i args) <> OFuel.
Proof.
  intros F. destruct (args_end args F) as (k & Hk). exists k. intros cs c. unfold convert_resolved. fold (substituted tn l i args).
  destruct (substituted_path tn l i args) as (l' & i' & ->). destruct args as [|a0 r]; [discriminate|].
  destruct (cxx_generic_behavior tn) eqn:G.
  - destruct (mentions_param c (a0 :: r)); [discriminate|]. destruct (path_name l' i'); [|discriminate].
    destruct (qmem q (tc_ignored env)); [discriminate|]. destruct (type_to_cpp _ _) as [def| |]; try discriminate.
    destruct (get_templated_typename cs def) as [[? ?] ?]. discriminate.
  - apply tbind_ends; [apply Hk|]. intros cs1 [[la d] x]. pose proof (confirm_ends GCppPtr la).
    destruct (confirm_payload env GCppPtr la); cbn; congruence.
  - apply tbind_ends; [apply Hk|]. intros cs1 [[la d] x]. pose proof (confirm_ends GCppVector la).
    destruct (confirm_payload env GCppVector la); cbn; congruence.
  - apply tbind_ends; [apply Hk|]. intros cs1 [[la d] x]. pose proof (confirm_ends GRust la).
    destruct (confirm_payload env GRust la); cbn; congruence.
Qed.

Definition ends' (t : ty) : Prop := ends t /\ forall m e, t = TPtr m e -> ends e.
Lemma ends_from_arguments t : (forall q e, named_by t q -> typedef_arguments q e -> ends e) -> ends' t.
Proof.
  induction t as [l i args IH|m lt e IH|m e IH|e n IH|s|s] using ty_ind'; intros H.
  - split; [|congruence].
    assert (F' : Forall ends' args).
    { rewrite Forall_forall in *. intros a Ia. apply IH; [exact Ia|]. intros q e N. apply H.
      destruct N as [l0 id0 P R|id0 P R]; [eapply nb_plain | eapply nb_relative]; eauto; econstructor; eauto. }
    assert (F : Forall ends args) by (eapply Forall_impl; [|exact F']; intros a [A _]; exact A).
    assert (P : exists k, forall cs c, snd (convert_plain_path env ns (convert_type k env ns) cs c l i args) <> OFuel).
    { unfold convert_plain_path. destruct (qualify env ns l i) as [[l1 i1]|e|] eqn:Q; [|exists 0; discriminate..].
      destruct (path_name l1 i1) as [o|] eqn:PN; [|exists 0; discriminate].
      assert (NB : named_by (TPath l i args) o).
      { unfold qualify in Q. destruct (_ || _).
        - injection Q as <- <-. eapply nb_plain; [constructor|]. apply path_name_refers, PN.
        - destruct (path_name l i) as [q|] eqn:PN0; [|discriminate].
          destruct (is_known_type q); [injection Q as <- <-; eapply nb_plain; [constructor|]; apply path_name_refers; congruence|].
          destruct l; [|discriminate]. destruct (qmem q (tc_found env)); injection Q as <- <-.
          + eapply nb_plain; [constructor|]. apply path_name_refers, PN.
          + eapply nb_relative; [constructor|]. rewrite path_name_cases in PN. cbn in PN. congruence. }
      destruct (validate_ident_ok_for_cxx _ _ _); [|exists 0; discriminate..].
      destruct (tc_blocked env (to_cpp_name o)); [exists 0; discriminate|].
      pose proof (resolve_correct _ ND o) as RC.
      destruct (resolve_typedef (tc_typedefs env) o) as [[t|]|n| | |]; try (exists 0; discriminate).
      - destruct t as [rl ri ra| | | | |]; try (exists 0; discriminate).
        destruct (path_name rl ri) as [rq|]; [|exists 0; discriminate]. apply resolved_ends.
        rewrite Forall_forall. intros a Ia. apply (H o); [exact NB|]. destruct RC as ((n & C & I) & _). exists n, rl, ri, ra. auto.
      - apply resolved_ends, F.
      - destruct RC. }
    destruct P as (k & P).
    assert (A : forall k', k <= k' -> forall cs c, snd (convert_actual_path env ns (convert_type k' env ns) cs c l i args) <> OFuel).
    { intros k' L cs c. unfold convert_actual_path. apply tbind_ends.
      - rewrite (plain_mono (convert_type k env ns)); [apply P | apply fuel_le, L | apply P].
      - intros cs1 a. destruct (ann_ty a); try discriminate. destruct (path_name lead id); [|discriminate].
        destruct (_ && _); [discriminate|]. destruct (should_dereference_in_cpp q); discriminate. }
    destruct args as [|a0 r].
    + exists (S k). intros cs c. cbn [convert_type convert_step]. unfold convert_type_path.
      assert (U : forall mk, unwrap_marker mk l i [] = None) by (intros; destruct l; reflexivity). rewrite !U.
      unfold unwrap_reference. rewrite !U. apply A. lia.
    + inversion F' as [|? ? [(k0 & F0) F1] Fr]; subst.
      assert (F2 : exists k1, forall m e, a0 = TPtr m e -> forall cs c, snd (convert_type k1 env ns cs c e) <> OFuel).
      { destruct a0 as [| |m0 e0| | |]; try (exists 0; congruence). destruct (F1 m0 e0 eq_refl) as (k1 & K1).
        exists k1. intros m e E. injection E as <- <-. exact K1. }
      destruct F2 as (k1 & F2). set (kk := max k (max k0 k1)). exists (S kk). intros cs c.
      cbn [convert_type convert_step]. unfold convert_type_path.
      assert (U : forall mk t, unwrap_marker mk l i (a0 :: r) = Some t -> t = a0).
      { intros mk t. unfold unwrap_marker. destruct l; [|discriminate]. destruct (String.eqb i mk); [|discriminate].
        destruct a0; congruence. }
      assert (V : forall rv m e, unwrap_reference rv l i (a0 :: r) = Some (m, e) -> a0 = TPtr m e).
      { intros rv m e. unfold unwrap_reference. destruct (unwrap_marker _ l i (a0 :: r)) as [t|] eqn:E; [|discriminate].
        apply U in E. subst t. destruct a0; congruence. }
      destruct (unwrap_marker unused_marker l i (a0 :: r)) eqn:U1;
        [rewrite (U _ _ U1); apply (ends_le k0); [unfold kk; lia | exact F0]|].
      destruct (unwrap_marker opaque_marker l i (a0 :: r)) eqn:U2;
        [rewrite (U _ _ U2); apply (ends_le k0); [unfold kk; lia | exact F0]|].
      destruct (unwrap_reference false l i (a0 :: r)) as [[m e]|] eqn:U3.
      { apply tbind_ends; [|discriminate]. apply (ends_le k1); [unfold kk; lia|]. apply (F2 m), (V _ _ _ U3). }
      destruct (unwrap_reference true l i (a0 :: r)) as [[m e]|] eqn:U4.
      { destruct (ensure_pointee e); [discriminate|]. apply tbind_ends; [|discriminate].
        apply (ends_le k1); [unfold kk; lia|]. apply (F2 m), (V _ _ _ U4). }
      apply A. unfold kk. lia.
  - split; [|congruence]. destruct IH as ((k & Hk) & _).
    { intros q e0 N. apply H. destruct N as [l0 id0 P R|id0 P R]; [eapply nb_plain | eapply nb_relative]; eauto; constructor; eauto. }
    exists (S k). intros cs c. cbn [convert_type convert_step]. apply tbind_ends; [apply Hk | discriminate].
  - destruct IH as ((k & Hk) & _).
    { intros q e0 N. apply H. destruct N as [l0 id0 P R|id0 P R]; [eapply nb_plain | eapply nb_relative]; eauto; constructor; eauto. }
    split.
    + exists (S k). intros cs c. cbn [convert_type convert_step]. destruct (ensure_pointee e); [discriminate|]. apply tbind_ends; [apply Hk | discriminate].
    + intros m0 e0 E. injection E as <- <-. exists k. exact Hk.
  - split; [|congruence]. destruct IH as ((k & Hk) & _).
    { intros q e0 N. apply H. destruct N as [l0 id0 P R|id0 P R]; [eapply nb_plain | eapply nb_relative]; eauto; constructor; eauto. }
    exists (S k). intros cs c. cbn [convert_type convert_step]. apply tbind_ends; [apply Hk | discriminate].
  - split; [exists 1; discriminate | congruence].
  - split; [exists 1; discriminate | congruence].
Qed.
End Fuel.

(** Converting a type ends, with a depth of recursion which does not depend on the state or the context,
    unless some typedef is mentioned in the arguments of what it stands for itself. *)
Theorem c64_conversion_ends_partial : forall env ns t,
  NoDup (map fst (tc_typedefs env)) -> well_founded (mentioned_in_arguments env ns) ->
  exists fuel, forall cs c, snd (convert_type fuel env ns cs c t) <> OFuel.
Proof.
  intros env ns t ND WF. apply (ends_from_arguments env ns ND t).
  intros q e _. revert e. induction (WF q) as [q _ IH]. intros e TA.
  apply (ends_from_arguments env ns ND e). intros q' e' N TA'. apply (IH q'); [|exact TA']. exists e. auto.
Qed.
Print Assumptions c64_conversion_ends_partial.

(** More depth never changes the outcome. *)
Theorem c64_outcome_independent_of_depth : forall env ns fuel fuel' cs c t,
  snd (convert_type fuel env ns cs c t) <> OFuel -> snd (convert_type fuel' env ns cs c t) <> OFuel ->
  convert_type fuel env ns cs c t = convert_type fuel' env ns cs c t.
Proof.
  intros env ns k k' cs c t H H'. destruct (Nat.le_ge_cases k k') as [L|L].
  - symmetry. apply (fuel_le env ns k k' L), H.
  - apply (fuel_le env ns k' k L), H'.
Qed.
Print Assumptions c64_outcome_independent_of_depth.

(** The hypotheses are met by a typedef of a container of another typedef. *)
Definition wf_env : tc_env :=
  TCE [] [(QN [] "V", TPath ["root"; "std"] "vector" [TPath ["root"] "W" []]); (QN [] "W", TPath ["root"] "A" [])]
    [] [] [] (fun _ => false) (fun _ => false) (fun _ => false) (fun _ => true) (fun _ => false).
Example c64_nonvacuous :
  NoDup (map fst (tc_typedefs wf_env)) /\ well_founded (mentioned_in_arguments wf_env []) /\
  mentioned_in_arguments wf_env [] (QN [] "W") (QN [] "V") /\
  snd (convert_type 9 wf_env [] [] OuterType (TPath ["root"] "V" [])) =
    OOk (Ann (TPath ["cxx"] "CxxVector" [TPath ["output"] "A" []]) [QN [] "V"; QN ["std"] "vector"; QN [] "W"; QN [] "A"] [] TkRegular).
Proof.
  assert (M : forall b a, mentioned_in_arguments wf_env [] b a -> b = QN [] "W").
  { intros b a (e & (n & l & i & args & _ & I & Ie) & N).
    destruct I as [I|[I|[]]]; injection I as <- <- <- <-; [|destruct Ie]. destruct Ie as [<-|[]].
    destruct N as [l0 id0 P R|id0 P R]; inversion P as [| ? ? ? ? ? ? X | | |]; subst; try (destruct X).
    apply path_name_refers in R. rewrite path_name_cases in R. cbn in R. congruence. }
  split; [repeat constructor; cbn; intuition discriminate|]. split; [|split; [|vm_compute; reflexivity]].
  - assert (W : Acc (mentioned_in_arguments wf_env []) (QN [] "W")).
    { constructor. intros b (e & (n & l & i & args & C & I & Ie) & N).
      destruct I as [I|[I|[]]]; injection I as <- <- <- <-; [|destruct Ie]. exfalso.
      (* V cannot be reached from W *)
      assert (Y : forall x y, clos_refl_trans qname (alias (tc_typedefs wf_env)) x y -> x = QN [] "W" \/ x = QN [] "A" -> y = QN [] "W" \/ y = QN [] "A").
      { intros x y CC. induction CC as [x y (t & It & R)|x|x y z _ IH1 _ IH2]; auto. intros [-> | ->].
        - destruct It as [E|[E|[]]]; [discriminate E|]. injection E as <-.
          apply refers_path_name in R. rewrite path_name_cases in R. cbn in R. right. congruence.
        - destruct It as [E|[E|[]]]; discriminate E. }
      destruct (Y _ _ C (or_introl eq_refl)); discriminate. }
    intros a. constructor. intros b Hb. rewrite (M b a Hb). exact W.
  - exists (TPath ["root"] "W" []). split.
    + exists (QN [] "V"), ["root"; "std"], "vector", [TPath ["root"] "W" []].
      split; [apply rt_refl|]. split; left; reflexivity.
    + eapply nb_plain; [constructor|]. constructor. left; reflexivity.
Qed.

(** [X] standing for [vector<X>] (not something C++ allows) would make the conversion run forever. *)
Definition loop_env : tc_env :=
  TCE [] [(QN [] "X", TPath ["root"; "std"] "vector" [TPath ["root"] "X" []])]
    [] [] [] (fun _ => false) (fun _ => false) (fun _ => false) (fun _ => true) (fun _ => false).
Theorem c64_self_containing_typedef_refuted : exists env ns t,
  NoDup (map fst (tc_typedefs env)) /\ forall fuel, snd (convert_type fuel env ns [] OuterType t) = OFuel.
Proof.
  exists loop_env, [], (TPath ["root"] "X" []). split; [repeat constructor; intros []|].
  enough (H : forall fuel cs c, snd (convert_type fuel loop_env [] cs c (TPath ["root"] "X" [])) = OFuel) by (intros; apply H).
  induction fuel as [|k IH]; intros cs c; [reflexivity|].
  change (snd (tbind (tbind (tbind (convert_type k loop_env [] cs WithinContainer (TPath ["root"] "X" [])) (fun cs1 i =>
     (cs1, OOk ([ann_ty i], ann_deps i ++ [], ann_extra i ++ [])))) (fun cs1 r =>
            let '(l, d, _) := r in
            match confirm_payload loop_env GCppVector l with
            | OOk k => (cs1, OOk (Ann (TPath ["cxx"] "CxxVector" l) ([QN [] "X"; QN ["std"] "vector"] ++ d) [] k))
            | OErr e => (cs1, OErr e)
            | OPanic => (cs1, OPanic)
            | OFuel => (cs1, OFuel)
            end)) (fun cs1 newp =>
    match ann_ty newp with
    | TPath nl ni _ =>
        match path_name nl ni with
        | None => (cs1, OPanic)
        | Some qn =>
            if negb (allow_forward c) && qmem qn (tc_forward loop_env)
            then (cs1, OErr (EOther "TypeContainingForwardDeclaration"))
            else if should_dereference_in_cpp qn
                 then (cs1, OOk (Ann (TRef false None (TPath [] "str" [])) (ann_deps newp) (ann_extra newp) TkReference))
                 else (cs1, OOk newp)
        end
    | _ => (cs1, OOk newp)
    end)) = OFuel).
  specialize (IH cs WithinContainer). destruct (convert_type k loop_env [] cs WithinContainer (TPath ["root"] "X" [])) as [cs1 o].
  cbn in IH. subst o. reflexivity.
Qed.
Print Assumptions c64_self_containing_typedef_refuted.

(** * C52: blocked types in signatures *)
(** What a path written in the bindings of namespace [ns] names. *)
Inductive stands_for (env : tc_env) (ns : list string) : list string -> string -> qname -> Prop :=
| sf_module m ns' id : m = "root" \/ m = "output" -> stands_for env ns (m :: ns') id (QN ns' id)
| sf_known l id : refers_to (TPath l id []) (QN l id) -> known_name (QN l id) -> stands_for env ns l id (QN l id)
| sf_found id : In (QN [] id) (tc_found env) -> stands_for env ns [] id (QN [] id)
| sf_relative id : ~ In (QN [] id) (tc_found env) -> ~ known_name (QN [] id) -> stands_for env ns [] id (QN ns id).
Definition markers : list string :=
  ["__bindgen_marker_UnusedTemplateParam"; "__bindgen_marker_Opaque"; "__bindgen_marker_Reference"; "__bindgen_marker_RValueReference"].
(** The types a type uses, leaving out the arguments of templates which are not built in. *)
Inductive uses (env : tc_env) (ns : list string) : ty -> qname -> Prop :=
| us_here l id args q : (l = [] -> ~ In id markers) -> id <> "root" -> id <> "output" -> stands_for env ns l id q -> uses env ns (TPath l id args) q
| us_marker k e r q : k = "__bindgen_marker_UnusedTemplateParam" \/ k = "__bindgen_marker_Opaque" ->
    uses env ns e q -> uses env ns (TPath [] k (e :: r)) q
| us_marker_ref k m e r q : k = "__bindgen_marker_Reference" \/ k = "__bindgen_marker_RValueReference" ->
    uses env ns e q -> uses env ns (TPath [] k (TPtr m e :: r)) q
| us_ref m lt e q : uses env ns e q -> uses env ns (TRef m lt e) q
| us_ptr m e q : uses env ns e q -> uses env ns (TPtr m e) q
| us_array e n q : uses env ns e q -> uses env ns (TArray e n) q
| us_arg ns' id args e q : cxx_generic_behavior (QN ns' id) <> GNot -> qget (QN ns' id) (tc_typedefs env) = None ->
    In e args -> uses env ns e q -> uses env ns (TPath ("root" :: ns') id args) q.

Lemma stands_for_qualify env ns l id q l1 i1 :
  id <> "root" -> id <> "output" -> stands_for env ns l id q -> qualify env ns l id = COk (l1, i1) ->
  path_name l1 i1 = Some q.
Proof.
  intros N1 N2 S Q. unfold qualify in Q. destruct S as [m ns' id M | l id R K | id I | id NI NK].
  - cbn [hd] in Q. assert (E : String.eqb m "root" || String.eqb m "output" = true).
    { apply orb_true_iff. rewrite !String.eqb_eq. exact M. }
    rewrite E in Q. injection Q as <- <-. rewrite path_name_cases, E. reflexivity.
  - apply path_name_refers in R. rewrite R in Q. destruct (_ || _); [injection Q as <- <-; exact R|].
    unfold is_known_type in Q. apply known_name_get in K as (td & K). rewrite K in Q. injection Q as <- <-. exact R.
  - cbn [hd] in Q. apply String.eqb_neq in N1. apply String.eqb_neq in N2.
    assert (PN : path_name [] id = Some (QN [] id)) by (rewrite path_name_cases, N1, N2; reflexivity).
    rewrite N1, N2 in Q. cbn [orb] in Q. rewrite PN in Q. destruct (is_known_type _); [injection Q as <- <-; exact PN|].
    apply qmem_In in I. rewrite I in Q. injection Q as <- <-. exact PN.
  - cbn [hd] in Q. apply String.eqb_neq in N1. apply String.eqb_neq in N2.
    assert (PN : path_name [] id = Some (QN [] id)) by (rewrite path_name_cases, N1, N2; reflexivity).
    rewrite N1, N2 in Q. cbn [orb] in Q. rewrite PN in Q. unfold is_known_type in Q.
    destruct (kt_get (QN [] id)) as [td|] eqn:K; [destruct NK; apply known_name_get; eauto|].
    apply qmem_nIn in NI. rewrite NI in Q. injection Q as <- <-. rewrite path_name_cases. reflexivity.
Qed.

Lemma unwrap_is_marker mk l id args t : In mk markers -> unwrap_marker mk l id args = Some t -> l = [] /\ In id markers.
Proof.
  unfold unwrap_marker. intros I. destruct l; [|discriminate]. destruct args; [discriminate|].
  destruct (String.eqb id mk) eqn:E; [|discriminate]. apply String.eqb_eq in E. subst. auto.
Qed.
Lemma unwrap_ref_is_marker rv l id args x : unwrap_reference rv l id args = Some x -> l = [] /\ In id markers.
Proof.
  unfold unwrap_reference. destruct (unwrap_marker (marker_for_reference rv) l id args) eqn:E; [|discriminate].
  intros _. eapply unwrap_is_marker; [|exact E]. destruct rv; cbn; tauto.
Qed.

(** A conversion succeeds only if no type it uses is blocked. *)
Theorem c52_blocked_types_refused : forall fuel env ns cs c t cs' a q,
  convert_type fuel env ns cs c t = (cs', OOk a) -> uses env ns t q -> tc_blocked env (to_cpp_name q) = false.
Proof.
  intros fuel env ns cs c t cs' a q H. apply convert_type_rel in H. revert cs c t cs' a H.
  assert (X : (forall cs c t cs' a, conv_to env ns cs c t cs' a -> uses env ns t q -> tc_blocked env (to_cpp_name q) = false) /\
    (forall cs c l i ar cs' a, plain_to env ns cs c l i ar cs' a ->
       (forall q, stands_for env ns l i q -> i <> "root" -> i <> "output" -> tc_blocked env (to_cpp_name q) = false) /\
       (forall ns' e, l = "root" :: ns' -> cxx_generic_behavior (QN ns' i) <> GNot -> qget (QN ns' i) (tc_typedefs env) = None ->
          In e ar -> uses env ns e q -> tc_blocked env (to_cpp_name q) = false)) /\
    (forall cs ar cs' la d x, args_to env ns cs ar cs' la d x -> forall e, In e ar -> uses env ns e q -> tc_blocked env (to_cpp_name q) = false)).
  { assert (HERE : forall lead id lead1 id1 orig, qualify env ns lead id = COk (lead1, id1) -> path_name lead1 id1 = Some orig ->
       tc_blocked env (to_cpp_name orig) = false ->
       forall q0, stands_for env ns lead id q0 -> id <> "root" -> id <> "output" -> tc_blocked env (to_cpp_name q0) = false).
    { intros lead id lead1 id1 orig Q PN B q0 S N1 N2.
      rewrite (stands_for_qualify _ _ _ _ _ _ _ N1 N2 S Q) in PN. congruence. }
    assert (NOT : forall lead id lead1 id1 orig ns', qualify env ns lead id = COk (lead1, id1) -> path_name lead1 id1 = Some orig ->
       lead = "root" :: ns' -> orig = QN ns' id).
    { intros lead id lead1 id1 orig ns' Q PN ->. unfold qualify in Q. cbn in Q. injection Q as <- <-.
      rewrite path_name_cases in PN. cbn in PN. congruence. }
    assert (SAME : forall orig lead1 id1 args tn deps rl ri ra, resolves env orig lead1 id1 args tn deps rl ri ra ->
       qget orig (tc_typedefs env) = None -> tn = orig /\ ra = args).
    { intros orig lead1 id1 args tn deps rl ri ra R G. inversion R as [? | ? ? ? ? RT]; subst; [auto|].
      unfold resolve_typedef in RT. rewrite Nat.add_comm in RT. cbn [Nat.add resolve_loop] in RT. rewrite G in RT. discriminate. }
    apply conv_mutind.
    - intros cs c lead id args t cs' a U C IH Us.
      assert (M : lead = [] /\ In id markers /\ (id = unused_marker \/ id = opaque_marker) /\ exists r, args = t :: r).
      { unfold unwrap_marker in U. destruct lead; [|destruct U; discriminate]. destruct args as [|a0 r]; [destruct U; discriminate|].
        split; [reflexivity|]. destruct (String.eqb id unused_marker) eqn:E1; [apply String.eqb_eq in E1; subst id|].
        - split; [cbn; tauto|]. split; [auto|]. exists r. destruct U as [U|U]; [destruct a0; congruence | discriminate U].
        - destruct (String.eqb id opaque_marker) eqn:E2; [apply String.eqb_eq in E2; subst id | destruct U; discriminate].
          split; [cbn; tauto|]. split; [auto|]. exists r. destruct U as [U|U]; [discriminate U | destruct a0; congruence]. }
      destruct M as (-> & M & K & r & ->). inversion Us; subst; [exfalso; match goal with O : [] = [] -> _ |- _ => exact (O eq_refl M) end | apply IH; assumption |].
      exfalso. clear U M. unfold unused_marker, opaque_marker in K.
      match goal with O : _ = "__bindgen_marker_Reference" \/ _ |- _ => destruct K as [K|K], O as [O|O]; rewrite K in O; discriminate O end.
    - intros cs c lead id args m e cs' i U C IH Us. destruct (unwrap_ref_is_marker _ _ _ _ _ U) as [-> M].
      unfold unwrap_reference, unwrap_marker in U. destruct args as [|a0 r]; [discriminate|].
      destruct (String.eqb id _) eqn:E; [|discriminate]. apply String.eqb_eq in E. subst id.
      destruct a0; try discriminate. injection U as -> ->.
      inversion Us; subst; [exfalso; match goal with O : [] = [] -> _ |- _ => exact (O eq_refl M) end | | apply IH; assumption].
      exfalso. match goal with O : _ \/ _ |- _ => destruct O; discriminate end.
    - intros cs c lead id args m e cs' i U EP C IH Us. destruct (unwrap_ref_is_marker _ _ _ _ _ U) as [-> M].
      unfold unwrap_reference, unwrap_marker in U. destruct args as [|a0 r]; [discriminate|].
      destruct (String.eqb id _) eqn:E; [|discriminate]. apply String.eqb_eq in E. subst id.
      destruct a0; try discriminate. injection U as -> ->.
      inversion Us; subst; [exfalso; match goal with O : [] = [] -> _ |- _ => exact (O eq_refl M) end | | apply IH; assumption].
      exfalso. match goal with O : _ \/ _ |- _ => destruct O; discriminate end.
    - intros cs c lead id args cs' a b U1 U2 U3 U4 Pl (IH1 & IH2) A Us.
      inversion Us as [? ? ? ? ? ? ? S | k e r ? K Ue E1 E2| k m e r ? K Ue E1 E2 | | | | ns' ? ? e ? G Q Ie Ue E1 E2]; subst.
      + apply IH1; assumption.
      + exfalso. destruct K as [-> | ->]; cbn in U1, U2; destruct e; try discriminate; inversion Ue.
      + exfalso. destruct K as [-> | ->]; discriminate.
      + eapply IH2; eauto.
    - intros cs c m lt e cs' i C IH Us. inversion Us; subst. auto.
    - intros cs c e n cs' i C IH Us. inversion Us; subst. auto.
    - intros cs c m e cs' i EP C IH Us. inversion Us; subst. auto.
    - intros cs c lead id args lead1 id1 orig other Q PN V B R N. split; [eapply HERE; eauto|].
      intros ns' e L G QG. rewrite (NOT _ _ _ _ _ _ Q PN L) in R. unfold resolve_typedef in R.
      rewrite Nat.add_comm in R. cbn [Nat.add resolve_loop] in R. rewrite QG in R. discriminate.
    - intros cs c lead id args lead1 id1 orig tn deps rl ri l' i' Q PN V B R S. split; [eapply HERE; eauto|].
      intros ns' e L G QG. rewrite (NOT _ _ _ _ _ _ Q PN L) in R. destruct (SAME _ _ _ _ _ _ _ _ _ R QG) as [_ <-]. intros [].
    - intros cs c lead id args lead1 id1 orig tn deps rl ri ra l' i' q0 def cs' n made Q PN V B R NE S G MP PN' QI TC GT.
      split; [eapply HERE; eauto|]. intros ns' e L G' QG. rewrite (NOT _ _ _ _ _ _ Q PN L) in R.
      destruct (SAME _ _ _ _ _ _ _ _ _ R QG) as [-> <-]. congruence.
    - intros cs c lead id args lead1 id1 orig tn deps rl ri ra l' i' cs' la d x k Q PN V B R NE S G A IH CP.
      split; [eapply HERE; eauto|]. intros ns' e L G' QG. rewrite (NOT _ _ _ _ _ _ Q PN L) in R.
      destruct (SAME _ _ _ _ _ _ _ _ _ R QG) as [-> <-]. apply IH.
    - intros cs e [].
    - intros cs s r cs' l d x A IH e [<-|Ie]; [intros B; inversion B | apply IH, Ie].
    - intros cs a r cs1 i cs' l d x _ C IHC A IHA e [<-|Ie]; [apply IHC | apply IHA, Ie]. }
  exact (proj1 X).
Qed.
Print Assumptions c52_blocked_types_refused.

Definition block_env : tc_env :=
  TCE [] [] [] [] [] (fun s => String.eqb s "n::Bad") (fun _ => false) (fun _ => false) (fun _ => true) (fun _ => false).
Example c52_types_nonvacuous :
  snd (convert_type 9 block_env ["n"] [] OuterType (TPath ["root"; "std"] "unique_ptr" [TPath [] "Bad" []])) = OErr (EOther "Blocked") /\
  uses block_env ["n"] (TPath ["root"; "std"] "unique_ptr" [TPath [] "Bad" []]) (QN ["n"] "Bad") /\
  (exists a, snd (convert_type 9 block_env ["m"] [] OuterType (TPath ["root"; "std"] "unique_ptr" [TPath [] "Bad" []])) = OOk a).
Proof.
  split; [vm_compute; reflexivity|]. split.
  - eapply us_arg; [vm_compute; discriminate | reflexivity | left; reflexivity|].
    apply us_here; [intros _; cbn; intuition discriminate | discriminate | discriminate|].
    apply sf_relative; [intros [] |]. intros K. apply known_name_get in K as (td & K). vm_compute in K. discriminate K.
  - eexists. vm_compute. reflexivity.
Qed.

(** The arguments of a template which is not built in are not looked at: [Foo<Bad>] gets a Rust name
    although [Bad] is blocked. *)
Theorem c52_template_argument_refuted : exists fuel env ns t a q,
  snd (convert_type fuel env ns [] OuterType t) = OOk a /\ tc_blocked env (to_cpp_name q) = true /\
  exists l i e, t = TPath l i [e] /\ uses env ns e q.
Proof.
  exists 9, block_env, [], (TPath ["root"] "Foo" [TPath ["root"; "n"] "Bad" []]). eexists. exists (QN ["n"] "Bad").
  split; [vm_compute; reflexivity|]. split; [vm_compute; reflexivity|]. exists ["root"], "Foo", (TPath ["root"; "n"] "Bad" []).
  split; [reflexivity|]. apply us_here; [discriminate|discriminate|discriminate|]. constructor. left. reflexivity.
Qed.
Print Assumptions c52_template_argument_refuted.
