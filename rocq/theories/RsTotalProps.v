(** C92: when the Rust code can be generated without a panic. *)
From Coq Require Import Relations Permutation.
From Verif Require Import Base QNamesModel KnownTypesModel KnownTypesProofs ApiModel ApiSpec ApiVecModel ApiVecProofs NameCheckModel
  TypesModel TypesSpec TypedefsModel CppTypesModel ConcreteNamesModel TypeConverterModel TypeConverterProofs TypeConverterProps ByValueModel ConversionModel SynthNamesModel
  FnAnalysisModel FnAnalysisProofs SubclassGenModel FrontModel FrontProofs FnDriverModel FnDriverProofs FnDriverProps FnCodegenModel
  CppGenModel CalledModel RsGenModel PipelineModel PipelineProofs PipelineProps GcModel GcProofs KeptProps ListedProps SubclassGenProps CalledProps RsGenProps RsAllProps.
From Verif Require FrontProps CppGenProps FnCodegenProps TrackersModel.
From Verif Require NsModel NsProps.

(** ** Types which can be given a lifetime *)
(** The path of a type, or of the type under one pointer or reference, is a name. *)
Definition head_named (t : ty) : Prop := match t with TPath l i _ => path_name l i <> None | _ => True end.
Definition named (t : ty) : Prop := head_named t /\ match t with TRef _ _ e | TPtr _ e => head_named e | _ => True end.
(** Rust's [Pin] of something else than a reference. *)
Definition bad_pin (t : ty) : Prop :=
  match t with TPath l i a => add_lifetime_to_pinned_reference l i a = PinPanic | _ => False end.
(** The names of the built-in type [Pin]. *)
Definition pin_names : list qname := [QN [] "Pin"; QN ["core"; "pin"] "Pin"; QN ["std"; "pin"] "Pin"].
Definition tame (t : ty) : Prop :=
  named t /\ (bad_pin t -> match t with TPath l i _ => exists q, path_name l i = Some q /\ In q pin_names | _ => False end).
(** The targets of typedefs are such types. *)
Definition tame_typedefs (env : tc_env) : Prop :=
  forall q t, resolve_typedef (tc_typedefs env) q = TdOk (Some t) -> tame t.

Lemma td_pin tn td a l i : kt_get tn = Some td -> td_path td a = TPath l i a -> add_lifetime_to_pinned_reference l i a = PinPanic ->
  In tn pin_names /\ (l, i) = (["core"; "pin"], "Pin").
Proof.
  intros K P B. apply kt_get_iff in K as [IT IS]. unfold td_path in P. injection P as <- <-.
  assert (A : forall td, In td known_table -> (td = TD "core::pin::Pin" "Pin" RustByValue (Some "std::pin::Pin") true false) \/
     add_lifetime_to_pinned_reference (qn_ns (new_from_cpp_name (td_rs td))) (qn_item (new_from_cpp_name (td_rs td))) a <> PinPanic).
  { intros t I. vm_compute in I. repeat (destruct I as [<-|I]; [first [left; reflexivity | right; vm_compute; discriminate]|]). destruct I. }
  destruct (A _ IT) as [->|N]; [|contradiction]. vm_compute in IS. split; [|reflexivity].
  repeat (destruct IS as [<-|IS]; [vm_compute; auto|]). destruct IS.
Qed.
Lemma pin_head l i a : add_lifetime_to_pinned_reference l i a = PinPanic -> (hd i l = "std" \/ hd i l = "core") /\ l <> [].
Proof.
  unfold add_lifetime_to_pinned_reference. destruct l as [|x l]; cbn [app hd].
  { destruct (negb _); discriminate. }
  destruct (String.eqb_spec x "std") as [->|]; [split; auto; discriminate|]. destruct (String.eqb_spec x "core") as [->|]; [split; auto; discriminate|]. discriminate.
Qed.
Lemma pin_known q : In q pin_names -> kt_get q <> None.
Proof. intros I. cbn in I. repeat (destruct I as [<-|I]; [vm_compute; discriminate|]). destruct I. Qed.
Lemma segments_named s : s <> [] -> from_segments s <> None.
Proof.
  unfold from_segments. assert (A : forall acc, s <> [] -> from_segments_aux acc s <> None); [|apply A].
  induction s as [|x r IH]; intros acc N; [elim N; reflexivity|].
  destruct r as [|y r]; [discriminate|]. cbn [from_segments_aux]. apply IH. discriminate.
Qed.
Lemma to_path_tame q : tame (to_type_path q) /\ (bad_pin (to_type_path q) -> In q pin_names).
Proof.
  unfold to_type_path. destruct (kt_get q) as [td|] eqn:K.
  - unfold td_path. split; [split|].
    + split; [|exact I]. cbn [head_named]. apply kt_get_iff in K as [IT _]. revert IT. generalize td.
      assert (A : forallb (fun td => match path_name (qn_ns (new_from_cpp_name (td_rs td))) (qn_item (new_from_cpp_name (td_rs td))) with Some _ => true | None => false end) known_table = true) by (vm_compute; reflexivity).
      intros t IT E. rewrite forallb_forall in A. specialize (A _ IT). cbv beta in A. rewrite E in A. discriminate.
    + intros B. cbn [bad_pin] in B. destruct (td_pin q td [] _ _ K eq_refl B) as [I E]. injection E as -> ->. exists (QN ["core"; "pin"] "Pin"). split; [reflexivity|cbn; auto].
    + intros B. cbn [bad_pin] in B. apply (td_pin q td [] _ _ K eq_refl B).
  - split; [split; [split; [|exact I]|]|]; cbn [head_named bad_pin].
    + unfold path_name, from_type_path, segs. cbn [app]. change (String.eqb "output" "root" || String.eqb "output" "output") with true. cbv iota.
      apply segments_named. destruct (qn_ns q); discriminate.
    + intros B. apply pin_head in B as [[B|B] _]; discriminate B.
    + intros B. apply pin_head in B as [[B|B] _]; discriminate B.
Qed.

Lemma qualified_head env ns lead id l i q : qualify env ns lead id = COk (l, i) -> path_name l i = Some q -> kt_get q = None ->
  l = [] \/ hd i l = "root" \/ hd i l = "output".
Proof.
  unfold qualify. intros H P K. destruct (String.eqb_spec (hd id lead) "root") as [E|_]; [cbn [orb] in H; injection H as <- <-; auto|].
  destruct (String.eqb_spec (hd id lead) "output") as [E|_]; [cbn [orb] in H; injection H as <- <-; auto|]. cbn [orb] in H.
  destruct (path_name lead id) as [q0|] eqn:Q; [|discriminate]. unfold is_known_type in H. destruct (kt_get q0) as [td|] eqn:K0.
  - injection H as <- <-. rewrite Q in P. injection P as <-. congruence.
  - destruct lead; [|discriminate]. destruct (qmem q0 (tc_found env)); injection H as <- <-; auto.
Qed.
Lemma substituted_pin env ns lead id l1 i1 orig args tn deps rl ri ra l' i' : tame_typedefs env ->
  qualify env ns lead id = COk (l1, i1) -> path_name l1 i1 = Some orig ->
  resolves env orig l1 i1 args tn deps rl ri ra -> substituted tn rl ri ra = TPath l' i' ra ->
  add_lifetime_to_pinned_reference l' i' ra = PinPanic -> In tn pin_names /\ (l', i') = (["core"; "pin"], "Pin").
Proof.
  intros TT Q P R S B. unfold substituted in S. destruct (kt_get tn) as [td|] eqn:K; [eapply td_pin; eauto|]. exfalso.
  destruct (pin_head _ _ _ B) as [HD NE].
  assert (SAME : hd ri rl <> "root" -> (l', i') = (rl, ri)).
  { intros N. destruct rl as [|x rl]; cbn in S.
    - cbn [hd] in N. destruct (String.eqb_spec ri "root"); [contradiction|]. injection S as <- <-. reflexivity.
    - cbn [hd] in N. destruct (String.eqb_spec x "root"); [contradiction|]. injection S as <- <-. reflexivity. }
  assert (NR : hd ri rl <> "root").
  { intros E. destruct rl as [|x rl]; cbn [hd] in E; subst; cbn in S; injection S as <- <-; [elim NE; reflexivity|]. cbn in HD. destruct HD; discriminate. }
  specialize (SAME NR). injection SAME as -> ->. inversion R; subst.
  - destruct (qualified_head _ _ _ _ _ _ _ Q P K) as [E|[E|E]]; [contradiction|contradiction|]. rewrite E in HD. destruct HD; discriminate.
  - match goal with H : resolve_typedef _ _ = _ |- _ => destruct (TT _ _ H) as (_ & T) end. cbn [bad_pin] in T. destruct (T B) as (q' & Q' & I').
    match goal with H : path_name rl ri = Some tn |- _ => rewrite H in Q'; injection Q' as <- end. exact (pin_known _ I' K).
Qed.

(** What conversion gives is such a type, and it is a bad [Pin] only if the function depends on the built-in type. *)
Lemma resolves_dep env orig l i args tn deps rl ri ra : resolves env orig l i args tn deps rl ri ra -> In tn deps.
Proof. intros R. inversion R; subst; [left; reflexivity|]. apply qinsert_In. left. reflexivity. Qed.
Lemma conv_tame env ns cs c t cs' a : tame_typedefs env -> conv_to env ns cs c t cs' a ->
  tame (ann_ty a) /\ (bad_pin (ann_ty a) -> exists q, In q (ann_deps a) /\ In q pin_names).
Proof.
  intros TT. revert cs c t cs' a.
  assert (PIN : forall t, path_name ["core"; "pin"] "Pin" <> None /\ ~ bad_pin (pin_mut t)) by (split; [discriminate|cbn; discriminate]).
  set (G := fun (a : annotated) => tame (ann_ty a) /\ (bad_pin (ann_ty a) -> exists q, In q (ann_deps a) /\ In q pin_names)).
  assert (PL : forall cs c lead id args cs' a, plain_to env ns cs c lead id args cs' a ->
     (forall l i ar, ann_ty a = TPath l i ar -> path_name l i <> None) -> G a).
  { intros cs c lead id args cs' a H NM. inversion H; subst; cbn [ann_ty ann_deps] in *; unfold G; cbn [ann_ty ann_deps].
    - match goal with H : resolve_typedef _ _ = _ |- _ => pose proof (TT _ _ H) as T end. split; [exact T|].
      intros B. destruct other; try contradiction B. match goal with H : forall l i a, TPath _ _ _ <> _ |- _ => elim (H _ _ _ eq_refl) end.
    - assert (B : add_lifetime_to_pinned_reference l' i' [] = PinPanic -> In tn pin_names /\ (l', i') = (["core"; "pin"], "Pin")) by (eapply substituted_pin; eauto).
      split; [split; [split; [exact (NM _ _ _ eq_refl)|exact I]|]|]; cbn [bad_pin]; intros X; destruct (B X) as [I1 E].
      + injection E as -> ->. exists (QN ["core"; "pin"] "Pin"). split; [reflexivity|cbn; auto].
      + exists tn. split; [eapply resolves_dep; eauto|exact I1].
    - destruct (to_path_tame n) as [T B]. split; [exact T|]. intros X. exists n. split; [apply qinsert_In; left; reflexivity|auto].
    - destruct (add_lifetime_to_pinned_reference l' i' la) eqn:AL.
      1,3: split; [split; [split; [exact (NM _ _ _ eq_refl)|exact I]|]|]; cbn [bad_pin]; rewrite AL; discriminate.
      exfalso. match goal with H : substituted tn rl ri ra = _, H1 : cxx_generic_behavior tn <> GNot |- _ => unfold substituted in H; unfold cxx_generic_behavior in H1; rename H into S0; rename H1 into GB end.
      destruct (kt_get tn) as [td|] eqn:K; [|apply GB; reflexivity]. apply kt_get_iff in K as [IT _]. unfold td_path in S0. injection S0 as <- <-.
      clear - IT GB AL. vm_compute in IT. repeat (destruct IT as [<-|IT]; [cbn in GB; first [apply GB; reflexivity | vm_compute in AL; discriminate]|]). destruct IT. }
  intros cs c t cs' a H. refine (conv_to_mut env ns (fun _ _ _ _ a _ => G a) (fun _ _ _ _ _ _ _ _ => True) (fun _ _ _ _ _ _ _ => True) _ _ _ _ _ _ _ _ _ _ _ _ _ _ cs c t cs' a H);
    try (intros; exact I); clear - PIN PL.
  - intros; assumption.
  - intros cs0 c0 lead id args m e cs1 i _ _ [(N & _) _]. unfold G; cbn [ann_ty ann_deps]. destruct m.
    + split; [split; [split; [discriminate|exact I]|]|]; intros B; elim (proj2 (PIN (ann_ty i)) B).
    + split; [split; [split; [exact I|exact (proj1 N)]|]|]; intros [].
  - intros cs0 c0 lead id args m e cs1 i _ _ _ [(N & _) _]. unfold G; cbn [ann_ty ann_deps]. split; [split; [split; [exact I|exact (proj1 N)]|]|]; intros [].
  - intros cs0 c0 lead id args cs1 a0 b _ _ _ _ P _ A. inversion A; subst.
    + eapply PL; eauto. intros l i ar E. match goal with H : forall l i ar, ann_ty b <> _ |- _ => elim (H _ _ _ E) end.
    + eapply PL; eauto. intros l0 i0 ar0 E. rewrite E in *. match goal with H : TPath _ _ _ = TPath _ _ _ |- _ => injection H as <- <- <- end. congruence.
    + unfold G; cbn [ann_ty ann_deps]. split; [split; [split; [exact I|discriminate]|]|]; intros [].
  - intros cs0 c0 m lt e cs1 i _ [(N & _) _]. unfold G; cbn [ann_ty ann_deps]. split; [split; [split; [exact I|exact (proj1 N)]|]|]; intros [].
  - intros cs0 c0 e n cs1 i _ _. unfold G; cbn [ann_ty ann_deps]. split; [split; [split; exact I|]|]; intros [].
  - intros cs0 c0 m e cs1 i _ _ [(N & _) _]. unfold G; cbn [ann_ty ann_deps]. split; [split; [split; [exact I|exact (proj1 N)]|]|]; intros [].
Qed.

(** ** Signatures *)
Definition fine (t : rty) : Prop := match ref_to_path t with Some (l, i) => path_name l i <> None | None => True end.
Definition unpinned (t : rty) : Prop := match t with RTy u => ~ bad_pin u | RImpl _ _ _ => True end.

Lemma signature_made np details rc ps rt conv :
  (forall w, In w ps -> fine (wp_type w)) -> (forall t, rt = Some t -> fine t /\ unpinned t) ->
  ((forall w, In w ps -> unpinned (wp_type w)) \/ rt = None) ->
  add_explicit_lifetime_if_necessary np details rc ps rt conv <> None.
Proof.
  intros FI RT UN.
  assert (A : reference_parameter_is_non_pod_reference np rc ps <> None).
  { clear UN. induction ps as [|p r IH]; [discriminate|]. cbn [reference_parameter_is_non_pod_reference].
    assert (IH' := IH (fun w I => FI w (or_intror I))). destruct (rc && String.eqb (wp_name p) "self"); [exact IH'|].
    pose proof (FI p (or_introl eq_refl)) as F. unfold fine in F. destruct (ref_to_path (wp_type p)) as [[l i]|]; [|exact IH'].
    destruct (path_name l i); [|elim F; reflexivity]. destruct (qmem q np); [discriminate|exact IH']. }
  assert (B : return_type_is_pod_or_known_type_reference np rt <> None).
  { destruct rt as [t|]; [|discriminate]. destruct (RT t eq_refl) as [F _]. unfold fine in F. cbn. destruct (ref_to_path t) as [[l i]|]; [|discriminate].
    destruct (path_name l i); [discriminate|elim F; reflexivity]. }
  unfold add_explicit_lifetime_if_necessary. destruct (reference_parameter_is_non_pod_reference np rc ps); [|elim A; reflexivity].
  destruct (return_type_is_pod_or_known_type_reference np rt); [|elim B; reflexivity]. destruct (negb _); [discriminate|].
  destruct (ret_with_lifetime rt) as [| |rt'] eqn:RL; [|discriminate|].
  - exfalso. destruct rt as [[[]|]|]; try discriminate RL. destruct (RT _ eq_refl) as [_ U]. cbn in U, RL.
    destruct (add_lifetime_to_pinned_reference _ _ _); try discriminate RL. apply U. reflexivity.
  - destruct UN as [UN| ->]; [|discriminate RL].
    assert (P : params_with_lifetime ps <> None).
    { clear - UN. induction ps as [|p r IH]; [discriminate|]. cbn [params_with_lifetime].
      pose proof (UN p (or_introl eq_refl)) as U. pose proof (IH (fun w I => UN w (or_intror I))) as R.
      assert (X : param_with_lifetime p <> None).
      { unfold param_with_lifetime. destruct (wp_type p) as [[]|]; try discriminate. cbn in U. destruct (add_lifetime_to_pinned_reference _ _ _); [discriminate|elim U; reflexivity|discriminate]. }
      destruct (param_with_lifetime p); [|elim X; reflexivity]. destruct (params_with_lifetime r); [discriminate|elim R; reflexivity]. }
    destruct (params_with_lifetime ps); [discriminate|elim P; reflexivity].
Qed.

(** ** One argument *)
(** How it is converted can be written down. *)
Record writable (pol : policy) (placement : bool) : Prop := {
  wr_code : forall x k, match rust_conversion pol (KVar x) k with
    | None => False
    | Some (_, RParam t _ c _) => fine t /\ (pol_rust pol <> RcFromPinMoveRefToPtr -> unpinned t) /\ (placement = true -> c = KVar x)
    | Some (_, RReturn _) => placement = true
    end;
  wr_bridge : fine (RTy (converted_rust_type pol)) /\ unpinned (RTy (converted_rust_type pol)) }.

Lemma argument_writable env an mv force soph self placement pol ctor :
  argument_conversion_details env an mv force soph self placement = Some pol ->
  placement = (self && ctor) || (match force with Some RcFromPlacementParamToNewReturn => true | _ => false end) ->
  tame (ann_ty an) -> ~ bad_pin (ann_ty an) ->
  force = None \/ (exists m e, ann_ty an = TPtr m e) ->
  (ctor = true -> self = true -> force = None /\ mv = false /\ (exists m e, ann_ty an = TPtr m e) /\ ann_kind an = TkPointer) ->
  (force = Some RcFromPlacementParamToNewReturn -> soph = Regular /\ ann_kind an = TkPointer) ->
  writable pol placement.
Proof.
  intros H PL [[HN N] _] NB FO CT FP.
  destruct placement.
  - (* a place for the result *)
    destruct (match force with Some RcFromPlacementParamToNewReturn => true | _ => false end) eqn:F.
    + destruct force as [[]|]; try discriminate F. destruct (FP eq_refl) as [-> K]. destruct FO as [FO|(m & e & T)]; [discriminate|].
      unfold argument_conversion_details in H. rewrite K in H. injection H as <-. rewrite T. split; [|split; cbn; tauto].
      intros x k. cbn. reflexivity.
    + rewrite orb_false_r in PL. symmetry in PL. apply andb_true_iff in PL as [-> ->]. destruct (CT eq_refl eq_refl) as (-> & -> & (m & e & T) & K).
      unfold argument_conversion_details in H. rewrite K in H. unfold general_conversion in H. rewrite K, T in H. rewrite andb_false_r in H. injection H as <-.
      split; [|split; cbn; tauto]. intros x k. cbn. repeat split; auto.
  - assert (FN : force <> Some RcFromPlacementParamToNewReturn). { intros ->. rewrite orb_true_r in PL. discriminate. }
    assert (GEN : general_conversion env an mv force soph self false = Some pol -> writable pol false).
    { clear H. unfold general_conversion. intros H. destruct (ann_ty an) as [l i a|m lt e|m e|e n|u|u] eqn:T.
      - destruct FO as [->|(m & e & E)]; [|discriminate]. cbn [head_named bad_pin] in HN, NB.
        destruct (is_wrapped_policy env && _ && _).
        { unfold extract_type_from_pinned_mut_ref in H. destruct a as [|[] a]; try discriminate H. injection H as <-.
          split; [|split; cbn; tauto]. intros x k. cbn. repeat split; auto; discriminate. }
        destruct (path_name l i) as [q|] eqn:Q; [|discriminate H].
        assert (P : forall c, c = CcNone \/ c = CcMove -> writable (Policy (TPath l i a) c RcNone) false).
        { intros c [->| ->]; split; cbn; intros; repeat split; auto; discriminate. }
        destruct (qmem q (fe_pod_safe env)); [destruct (lacks_copy_constructor q); injection H as <-; apply P; auto|].
        destruct (convertible_from_strs q && negb (fe_no_utilities env)); [injection H as <-; split; cbn; intros; repeat split; auto; discriminate|].
        destruct soph; injection H as <-; split; cbn; intros; repeat split; auto; discriminate.
      - destruct FO as [->|(m' & e' & E)]; [|discriminate]. cbn in N.
        assert (FE : fine (RTy (TRef m lt e))) by (unfold fine; cbn; destruct e; auto).
        match type of H with (if ?b then _ else _) = _ => destruct b end; [destruct m; [discriminate|]; injection H as <-|injection H as <-];
          (split; [|split; cbn; auto]); intros; cbn; repeat split; auto; discriminate.
      - assert (FE : forall b, fine (RTy (TRef b None e))) by (intros b; unfold fine; cbn; destruct e; auto).
        assert (P : forall c, c = CcNone \/ c = CcFromPtrToMove -> writable (Policy (TPtr m e) c (match force with Some c => c | None => RcNone end)) false).
        { intros c C. split; [|destruct C as [->| ->]; split; cbn; auto]. intros x k. destruct force as [[]|]; cbn; try (elim FN; reflexivity);
            try (repeat split; auto; try discriminate; try (destruct C as [->| ->]; cbn; tauto); fail).
          all: repeat split; auto; try discriminate; try (destruct C as [->| ->]; cbn; tauto); try (destruct m; cbn; auto; discriminate); intros X; elim X; reflexivity. }
        destruct mv; [injection H as <-; apply P; auto|]. destruct (ann_kind an); cbv iota in H; try match type of H with Some (if ?b then _ else _) = _ => destruct b end;
          injection H as <-; try (apply P; auto; fail); (split; [|split; cbn; auto]); intros; cbn; repeat split; auto; try discriminate; destruct m; cbn; discriminate.
      - destruct FO as [->|(m' & e' & E)]; [|discriminate]. injection H as <-. split; cbn; intros; repeat split; auto; discriminate.
      - destruct FO as [->|(m' & e' & E)]; [|discriminate]. injection H as <-. split; cbn; intros; repeat split; auto; discriminate.
      - destruct FO as [->|(m' & e' & E)]; [|discriminate]. injection H as <-. split; cbn; intros; repeat split; auto; discriminate. }
    unfold argument_conversion_details in H.
    assert (HO : forall h, match from_holder_name h with Some sub => Some (Policy (TPath ["rust"] "Box" [TPath [] h []]) CcMove (RcToBoxedUpHolder sub)) | None => None end = Some pol -> writable pol false).
    { intros h E. destruct (from_holder_name h); [|discriminate]. injection E as <-. split; cbn; intros; repeat split; auto; discriminate. }
    destruct (ann_kind an) eqn:K; try (exact (HO _ H)); destruct force as [[]|]; try exact (GEN H); elim FN; reflexivity.
Qed.

(** ** All arguments *)
Definition ptr_ok (o : option code) : Prop := match o with None | Some (KVar _) => True | _ => False end.
Lemma parts_made avoid details : (forall pd, In pd details -> writable (a_conv pd) (a_placement pd)) -> forall acc, ptr_ok (pa_ptr acc) ->
  exists pa, param_parts avoid details acc = Some pa /\ ptr_ok (pa_ptr pa) /\
    (forall w, In w (pa_params pa) -> In w (pa_params acc) \/
       fine (wp_type w) /\ ((forall pd, In pd details -> pol_rust (a_conv pd) <> RcFromPinMoveRefToPtr) -> unpinned (wp_type w))) /\
    (pa_ret pa = pa_ret acc \/ (exists pd, In pd details /\ a_placement pd = true) /\ exists t, pa_ret pa = Some (RImpl new_type (Some t) false)) /\
    List.length (pa_params pa) = List.length (pa_params acc) + List.length (filter (fun pd => negb (a_placement pd)) details).
Proof.
  induction details as [|pd r IH]; intros W acc PO.
  { exists acc. cbn. split; [reflexivity|]. split; [exact PO|]. split; [auto|]. split; [auto|lia]. }
  cbn [param_parts]. pose proof (W pd (or_introl eq_refl)) as [C _].
  set (name := if _ : bool then "self" else a_name pd). specialize (C name (pa_counter acc)).
  destruct (rust_conversion (a_conv pd) (KVar name) (pa_counter acc)) as [[k [t locals c u|t]]|] eqn:RC; [| |destruct C].
  - destruct C as (FT & UT & PT).
    match goal with |- exists pa, param_parts avoid r ?a = _ /\ _ => destruct (IH (fun pd I => W pd (or_intror I)) a) as (pa & E & PO' & PS & RT & LN) end.
    { cbn. destruct (a_placement pd); [rewrite (PT eq_refl); exact I|exact PO]. }
    exists pa. split; [exact E|]. split; [exact PO'|]. split; [|split; [destruct RT as [RT|((pd' & I' & P') & RT)]; [left; exact RT|right; split; [exists pd'; split; [right; exact I'|exact P']|exact RT]]|]].
    + intros w Iw. destruct (PS w Iw) as [Iw'|[F U]].
      * cbn [pa_params] in Iw'. destruct (a_placement pd); [auto|]. apply in_app_iff in Iw' as [Iw'|[<-|[]]]; [auto|]. right. cbn [wp_type]. split; [exact FT|].
        intros N. apply UT. apply N. left. reflexivity.
      * right. split; [exact F|]. intros N. apply U. intros pd' I'. apply N. right. exact I'.
    + rewrite LN. cbn [pa_params filter]. destruct (a_placement pd); cbn [negb]; [reflexivity|]. rewrite app_length. cbn. lia.
  - match goal with |- exists pa, param_parts avoid r ?a = _ /\ _ => destruct (IH (fun pd I => W pd (or_intror I)) a) as (pa & E & PO' & PS & RT & LN) end; [exact I|].
    exists pa. split; [exact E|]. split; [exact PO'|]. split; [|split].
    + intros w Iw. destruct (PS w Iw) as [Iw'|[F U]]; [auto|]. right. split; [exact F|]. intros N. apply U. intros pd' I'. apply N. right. exact I'.
    + right. split; [exists pd; split; [left; reflexivity|exact C]|]. destruct RT as [RT|(_ & RT)]; [rewrite RT; cbn; eauto|exact RT].
    + rewrite LN. cbn [pa_params filter]. rewrite C. reflexivity.
Qed.

Lemma one_token b ctx c : exists e, maybe_unsafes_to_tokens [if b : bool then NeedsUnsafe c else Normal c] ctx = [e].
Proof. destruct b, ctx; cbn; eauto. Qed.

(** The body and the signature of a wrapper. *)
Lemma parts_common np fa avoid order rt :
  (forall pd, In pd (fa_details fa) -> writable (a_conv pd) (a_placement pd)) ->
  (order = None \/ order = Some [1; 0] /\ 2 <= List.length (filter (fun pd => negb (a_placement pd)) (fa_details fa))) ->
  ((forall pd, In pd (fa_details fa) -> pol_rust (a_conv pd) <> RcFromPinMoveRefToPtr) \/
   rt = None /\ forall pd, In pd (fa_details fa) -> a_placement pd = false) ->
  (forall t, rt = Some t -> fine t /\ unpinned t) ->
  (forall rc, fa_ret_conv fa = Some rc -> pol_rust rc = RcNone \/ pol_rust rc = RcFromPointerToReferenceWrapper /\ exists m e, pol_type rc = TPtr m e) ->
  common_parts np fa avoid order rt <> None.
Proof.
  intros W OR MV RT RC. unfold common_parts.
  destruct (parts_made avoid (fa_details fa) W (Parts [] [] [] None rt false 0) I) as (pa & -> & PO & PS & RE & LN). cbn [pa_params List.length pa_ret] in *.
  assert (O : exists wps, (match order with Some o => reorder (pa_params pa) o | None => Some (pa_params pa) end) = Some wps /\ forall w, In w wps -> In w (pa_params pa)).
  { destruct OR as [->|[-> L]]; [eauto|]. rewrite Nat.add_0_l in LN. rewrite <- LN in L. destruct (pa_params pa) as [|a [|b ps]]; cbn in L; try lia. cbn. eexists. split; [reflexivity|]. cbn. tauto. }
  destruct O as (wps & -> & WI).
  assert (SG : add_explicit_lifetime_if_necessary np (fa_details fa) true wps (pa_ret pa) (fa_ret_conv fa) <> None).
  { apply signature_made.
    - intros w Iw. destruct (PS w (WI w Iw)) as [[]|[F _]]. exact F.
    - intros t E. destruct RE as [RE|(_ & u & RE)]; rewrite RE in E; [exact (RT _ E)|]. injection E as <-. split; exact I.
    - destruct MV as [MV|[-> NP]].
      + left. intros w Iw. destruct (PS w (WI w Iw)) as [[]|[_ U]]. exact (U MV).
      + right. destruct RE as [RE|((pd & I1 & P1) & _)]; [exact RE|]. rewrite (NP _ I1) in P1. discriminate. }
  destruct (add_explicit_lifetime_if_necessary _ _ _ _ _ _) as [sg|]; [|elim SG; reflexivity]. cbv zeta.
  match goal with |- match ?c with Some _ => _ | None => _ end <> None => assert (C : exists x, c = Some x) end.
  { destruct (fa_ret_conv fa) as [rc|]; [|eauto]. destruct (rust_work_needed rc) eqn:RW; [|eauto].
    destruct (RC rc eq_refl) as [N|[N (m & e & T)]]; [unfold rust_work_needed in RW; rewrite N in RW; discriminate|].
    match goal with |- exists x, match maybe_unsafes_to_tokens [if ?b then _ else _] ?ctx with _ => _ end = _ => destruct (one_token b ctx (KCall (fa_bridge fa) (pa_args pa))) as (ex & ->) end.
    unfold rust_conversion. rewrite N, T. eauto. }
  destruct C as ([cb rt'] & ->). destruct (pa_ptr pa) as [[]|]; try contradiction PO; discriminate.
Qed.

(** ** A function *)
(** As C++ has it: constructors and destructors are methods, copy and move constructors return nothing, and a move constructor takes
    an rvalue reference. *)
Definition starts_with_this (fn : func) : Prop := exists t rest, f_inputs fn = ("this", t) :: rest.
Definition usual (fn : func) (kind : fn_kind) : Prop :=
  match kind with
  | FMethod (MConstructor _) _ | FTraitMethod TDestructor _ => starts_with_this fn
  | FTraitMethod TCopyConstructor _ => starts_with_this fn /\ f_output fn = None
  | FTraitMethod TMoveConstructor _ => starts_with_this fn /\ f_output fn = None /\
      forall n u, nth_error (f_inputs fn) 1 = Some (n, u) -> exists d m e, declared u d m e /\ d <> DLRef
  | _ => True
  end.

Lemma fix_length env fn ns soph kind ps s s' ig ps1 : fix_receiver env fn ns soph kind ps s = (s', OOk (ig, ps1)) ->
  List.length ps1 = List.length ps /\
  match kind with FTraitMethod (TCopyConstructor | TMoveConstructor) _ => ig = None -> List.length ps = 2 | _ => True end.
Proof.
  intros H. unfold fix_receiver in H. cbv zeta in H.
  assert (RE : forall idx force ctor mv l s s' l', reanalyze env fn ns idx force soph ctor mv l s = (s', OOk l') -> List.length l' = List.length l).
  { clear. intros idx force ctor mv l s s' l' H. unfold reanalyze in H. apply bind_ok in H as (s1 & [n t] & _ & H). apply bind_ok in H as (s2 & p & _ & H).
    destruct (Nat.ltb_spec idx (List.length l)) as [L|L]; [|discriminate H]. apply ret_ok in H as [_ ->]. unfold set_nth.
    rewrite app_length. cbn [List.length]. rewrite firstn_length, skipn_length. lia. }
  assert (KG : forall ig0 idx force ctor mv l s s' ig1 l', keep_going ig0 l (reanalyze env fn ns idx force soph ctor mv l) s = (s', OOk (ig1, l')) ->
     List.length l' = List.length l /\ (ig1 = None -> ig0 = None)).
  { intros ig0 idx force ctor mv l0 s0 s0' ig1 l' K. unfold keep_going in K. apply bind_ok in K as (s1 & r & C & K). apply ret_ok in K as [_ K].
    apply catch_ok in C as [(p & C & ->)|(e & C & ->)]; injection K as -> ->; [split; [eapply RE; eauto|auto]|split; [reflexivity|discriminate]]. }
  assert (CN : set_if (set_if None (Nat.ltb (List.length ps) 2) "ConstructorWithOnlyOneParam") (Nat.ltb 2 (List.length ps)) "ConstructorWithMultipleParams" = None -> List.length ps = 2).
  { unfold set_if. destruct (Nat.ltb_spec (List.length ps) 2), (Nat.ltb_spec 2 (List.length ps)); try discriminate. intros _. lia. }
  destruct kind as [|mk q|tk q]; [apply ret_ok in H as [_ H]; injection H as -> ->; auto| |].
  - destruct mk; try (apply ret_ok in H as [_ H]; injection H as -> ->; auto). apply KG in H as [L _]. auto.
  - destruct tk; try (apply ret_ok in H as [_ H]; injection H as -> ->; auto).
    + apply KG in H as [L N]. auto.
    + apply bind_ok in H as (s1 & [ig1 ps2] & H1 & H). apply KG in H1 as [L1 N1]. apply KG in H as [L N]. split; [congruence|]. auto.
    + apply KG in H as [L _]. auto.
Qed.

Lemma declared_pointer t d m e : declared t d m e -> d <> DLRef -> forall fuel env ns cs c cs' an,
  convert_type fuel env ns cs c t = (cs', OOk an) -> exists x, ann_ty an = TPtr m x.
Proof.
  intros D N fuel env ns cs c cs' an C. destruct (c60_declarators_kept _ _ _ _ D _ _ _ _ _ _ _ C) as (f & i & _ & E & _).
  destruct d; cbn in E; [|elim N; reflexivity|]; injection E as -> _; eauto.
Qed.

Theorem c92_function_partial : forall env name fn soph pre st st' fa nm,
  analyze_foreign_fn env name fn soph pre st = (st', OOk (fa, nm)) -> tame_typedefs (fe_tc env) -> usual fn (fa_kind fa) ->
  (forall q, In q (fa_deps fa) -> ~ In q pin_names) -> forall np, gen_function np fa <> None.
Proof.
  intros env name fn soph pre st st' fa nm H TT US NP np. unfold gen_function.
  destruct (fa_ignore fa) eqn:IG; [discriminate|]. destruct (fa_external fa); [|discriminate]. cbn [orb negb].
  apply analyze_ok in H as (_ & ps0 & bads & ig0 & ps1 & r & ig2 & b0 & kw & PC).
  apply (pc_ignore _ _ _ _ _ _ _ _ _ _ _ _ _ _ PC) in IG as [IG _]. apply KeptProofs.references_none in IG. subst ig2.
  destruct (pc_return _ _ _ _ _ _ _ _ _ _ _ _ _ _ PC) as (rs1 & rs2 & [[CR E]|(e & _ & _ & E)]); [|discriminate E].
  symmetry in E. apply KeptProofs.unsupported_none in E as [-> ->].
  destruct (pc_receiver _ _ _ _ _ _ _ _ _ _ _ _ _ _ PC) as (fs1 & fs2 & FR). pose proof (fix_length _ _ _ _ _ _ _ _ _ _ FR) as [FL FC].
  destruct (pc_params _ _ _ _ _ _ _ _ _ _ _ _ _ _ PC) as (qs1 & qs2 & CP). apply convert_params_ok in CP as (CP & _ & _).
  pose proof (convert_return_type_ok _ _ _ _ _ _ _ CR) as CRO.
  assert (TAME : forall t cs cs' c an, convert_type (fe_fuel env) (fe_tc env) (qn_ns (an_name name)) cs c t = (cs', OOk an) ->
     tame (ann_ty an) /\ (bad_pin (ann_ty an) -> exists q, In q (ann_deps an) /\ In q pin_names)).
  { intros t cs cs' c an C. apply convert_type_rel in C. eapply conv_tame; eauto. }
  assert (FIN : forall t, tame t -> ~ bad_pin t -> fine (RTy t) /\ unpinned (RTy t)).
  { intros t [[_ N] _] B. split; [|exact B]. unfold fine. cbn. destruct t as [| m lt []| | | |]; cbn in *; auto. }
  assert (PTR : forall t, (exists m e, t = TPtr m e) -> ~ bad_pin t) by (intros t (m & e & ->) []).
  (* every parameter *)
  assert (ARG : forall p, In p (ps1 ++ match r_placement r with Some p => [p] | None => [] end) ->
     writable (a_conv (snd p)) (a_placement (snd p)) /\ (fine (RTy (snd (fst p))) /\ unpinned (RTy (snd (fst p)))) /\
     (pol_rust (a_conv (snd p)) = RcFromPinMoveRefToPtr -> exists q, fa_kind fa = FTraitMethod TMoveConstructor q) /\
     (a_placement (snd p) = true -> (exists d q, fa_kind fa = FMethod (MConstructor d) q) \/ f_output fn <> None)).
  { intros p Ip. apply in_app_iff in Ip as [Ip|Ip].
    - destruct (fix_receiver_in _ _ _ _ _ _ _ _ _ _ FR p Ip) as [I0|(idx & force & ctor & mv & n & t & s3 & s4 & A & N & C)].
      + destruct (CP _ I0) as (n & t & s5 & s6 & IN & C). apply convert_fn_arg_ok in C as (an & t' & AS).
        destruct (as_conv _ _ _ _ _ _ _ _ _ _ _ _ AS) as (cs & cs' & CV). destruct (TAME _ _ _ _ _ CV) as [T B].
        assert (NB : ~ bad_pin (ann_ty an)).
        { intros X. destruct (B X) as (q & I1 & I2). apply (NP q); [|exact I2]. rewrite (pc_deps _ _ _ _ _ _ _ _ _ _ _ _ _ _ PC). apply in_app_iff. left.
          apply in_flat_map. exists p. split; [exact I0|]. rewrite (as_deps _ _ _ _ _ _ _ _ _ _ _ _ AS). exact I1. }
        pose proof (as_placement _ _ _ _ _ _ _ _ _ _ _ _ AS) as PL.
        split; [|split; [|split]].
        * eapply argument_writable; [exact (as_policy _ _ _ _ _ _ _ _ _ _ _ _ AS)|exact PL|exact T|exact NB|left; reflexivity|discriminate|discriminate].
        * rewrite (as_type _ _ _ _ _ _ _ _ _ _ _ _ AS). auto.
        * intros X. exfalso. pose proof (as_policy _ _ _ _ _ _ _ _ _ _ _ _ AS) as PO. clear - PO X. unfold argument_conversion_details, general_conversion in PO.
          repeat (match type of PO with context [match ?b with _ => _ end] => destruct b end; try discriminate PO); injection PO as PO; rewrite <- PO in X; discriminate X.
        * intros X. rewrite PL, andb_false_r in X. discriminate.
      + apply convert_fn_arg_ok in C as (an & t' & AS). destruct (as_conv _ _ _ _ _ _ _ _ _ _ _ _ AS) as (cs & cs' & CV). destruct (TAME _ _ _ _ _ CV) as [T _].
        pose proof (as_placement _ _ _ _ _ _ _ _ _ _ _ _ AS) as PL.
        assert (THIS : n = "this" -> (exists m e, ann_ty an = TPtr m e) /\ ann_kind an = TkPointer).
        { intros E. destruct (as_this _ _ _ _ _ _ _ _ _ _ _ _ AS E) as (m & e & e' & _ & -> & _).
          destruct (c60_declarators_kept _ _ _ _ (dc_ptr m e') _ _ _ _ _ _ _ CV) as (f & i & _ & X & _). cbn in X. injection X as -> ->. eauto. }
        assert (P : (exists m e, ann_ty an = TPtr m e) /\ (ctor = true -> ann_kind an = TkPointer)).
        { destruct (fa_kind fa) as [|[] q|[] q]; try contradiction A; cbn [usual] in US; unfold again in A.
          - destruct US as (t1 & rest & F), A as (-> & _ & _ & _). rewrite F in N. injection N as <- <-. destruct (THIS eq_refl); auto.
          - destruct US as [(t1 & rest & F) _], A as (-> & _ & -> & _). rewrite F in N. injection N as <- <-. destruct (THIS eq_refl); auto.
          - destruct US as [(t1 & rest & F) [_ UM]], A as (-> & [(-> & _ & _)|(-> & _ & _)]).
            + rewrite F in N. injection N as <- <-. destruct (THIS eq_refl); auto.
            + split; [|discriminate]. destruct (String.eqb_spec n "this") as [E|E]; [destruct (THIS E); auto|].
              destruct (UM _ _ N) as (d & m & e & D & ND). destruct (as_other _ _ _ _ _ _ _ _ _ _ _ _ AS E) as (-> & _).
              destruct (declared_pointer _ _ _ _ D ND _ _ _ _ _ _ _ CV) as (x & X). eauto.
          - destruct US as (t1 & rest & F), A as (-> & _ & -> & _). rewrite F in N. injection N as <- <-. destruct (THIS eq_refl); auto. }
        destruct P as [P KP].
        assert (FO : force <> Some RcFromPlacementParamToNewReturn /\ (ctor = true -> force = None /\ mv = false /\ exists d q, fa_kind fa = FMethod (MConstructor d) q) /\
                     (force = Some RcFromPinMoveRefToPtr -> exists q, fa_kind fa = FTraitMethod TMoveConstructor q)).
        { clear - A. destruct (fa_kind fa) as [|[] q|[] q]; try contradiction A; unfold again in A; decompose [and or] A; subst; (split; [discriminate|split; [|eauto; discriminate]]); try discriminate; eauto. }
        destruct FO as (FO & CT & FM).
        split; [|split; [|split]].
        * eapply argument_writable; [exact (as_policy _ _ _ _ _ _ _ _ _ _ _ _ AS)|exact PL|exact T|auto|auto| |intros X; elim FO; exact X].
          intros -> _. destruct (CT eq_refl) as (-> & -> & _). auto.
        * rewrite (as_type _ _ _ _ _ _ _ _ _ _ _ _ AS). auto.
        * intros X. apply FM. pose proof (as_policy _ _ _ _ _ _ _ _ _ _ _ _ AS) as PO. clear - PO X P. destruct P as (m & e & P). unfold argument_conversion_details, general_conversion in PO. rewrite P in PO.
          repeat (match type of PO with context [match ?b with _ => _ end] => destruct b end; try discriminate PO); injection PO as PO; rewrite <- PO in X; cbn in X; try discriminate X; congruence.
        * intros X. rewrite PL in X. apply orb_true_iff in X as [X|X]; [|destruct force as [[]|]; try discriminate X; elim FO; reflexivity].
          apply andb_true_iff in X as [_ X]. left. apply (CT X).
    - destruct (r_placement r) as [p'|] eqn:RP; [|destruct Ip]. destruct Ip as [<-|[]].
      destruct (f_output fn) as [t0|]; [|rewrite CRO in RP; discriminate RP].
      destruct CRO as (an0 & s3 & _ & [(_ & conv & -> & _)|(l & i & ar & q & _ & _ & _ & [(_ & _ & p & s4 & C & ->)|(_ & ->)])]); try discriminate RP.
      cbn in RP. injection RP as ->. apply convert_fn_arg_ok in C as (an & t' & AS). destruct (as_conv _ _ _ _ _ _ _ _ _ _ _ _ AS) as (cs & cs' & CV). destruct (TAME _ _ _ _ _ CV) as [T _].
      pose proof (as_placement _ _ _ _ _ _ _ _ _ _ _ _ AS) as PL.
      destruct (as_other _ _ _ _ _ _ _ _ _ _ _ _ AS) as (-> & _); [discriminate|].
      destruct (c60_declarators_kept _ _ _ _ (dc_ptr true (ann_ty an0)) _ _ _ _ _ _ _ CV) as (f & i' & _ & X & _). cbn in X. injection X as XT XK.
      assert (P : exists m e, ann_ty an = TPtr m e) by eauto.
      split; [|split; [|split]].
      * eapply argument_writable; [exact (as_policy _ _ _ _ _ _ _ _ _ _ _ _ AS)|exact PL|exact T|auto|auto|discriminate|auto].
      * rewrite (as_type _ _ _ _ _ _ _ _ _ _ _ _ AS). auto.
      * intros Y. exfalso. pose proof (as_policy _ _ _ _ _ _ _ _ _ _ _ _ AS) as PO. clear - PO Y XK. unfold argument_conversion_details in PO. rewrite XK in PO. injection PO as PO. rewrite <- PO in Y. discriminate Y.
      * intros _. right. discriminate. }
  assert (DET : forall pd, In pd (fa_details fa) -> exists p, In p (ps1 ++ match r_placement r with Some p => [p] | None => [] end) /\ pd = snd p).
  { intros pd Ip. rewrite (pc_details _ _ _ _ _ _ _ _ _ _ _ _ _ _ PC) in Ip. apply in_map_iff in Ip as (p & <- & Ip). eauto. }
  assert (W : forall pd, In pd (fa_details fa) -> writable (a_conv pd) (a_placement pd)).
  { intros pd Ip. destruct (DET pd Ip) as (p & I1 & ->). apply (ARG p I1). }
  (* the result *)
  assert (RET : forall t, fa_ret fa = Some t -> fine (RTy t) /\ unpinned (RTy t)).
  { intros t E. rewrite (pc_ret _ _ _ _ _ _ _ _ _ _ _ _ _ _ PC) in E. destruct (f_output fn) as [t0|]; [|rewrite CRO in E; destruct (is_some _); discriminate E].
    destruct CRO as (an & s3 & CB & CASES). apply convert_boxed_ok in CB as (cs' & CV). destruct (TAME _ _ _ _ _ CV) as [T B].
    assert (ND : r_deps r = ann_deps an -> ~ bad_pin (ann_ty an)).
    { intros D X. destruct (B X) as (q & I1 & I2). apply (NP q); [|exact I2]. rewrite (pc_deps _ _ _ _ _ _ _ _ _ _ _ _ _ _ PC), D. apply in_app_iff. right. exact I1. }
    destruct CASES as [(_ & conv & -> & CO)|(l & i & ar & q & _ & _ & _ & [(_ & _ & p & s4 & C & ->)|(_ & ->)])]; cbn in E.
    - specialize (ND eq_refl). 
      destruct (is_some (fa_wrapper fa)); [|injection E as <-; auto]. destruct (populate_return_value conv); [|injection E as <-; auto]. injection E as <-.
      destruct (_ && _) in CO; [|subst conv; exact (FIN _ T ND)].
      unfold return_reference_into_wrapper in CO. destruct (ann_ty an); try discriminate CO; [destruct (extract_pinned_mutable_reference_type _); [|discriminate CO]|]; injection CO as <-; split; cbn; auto.
    - destruct (is_some (fa_wrapper fa)); discriminate E.
    - specialize (ND eq_refl). destruct (is_some (fa_wrapper fa)); injection E as <-; [split; [exact I|cbn; discriminate]|auto]. }
  assert (RC : forall rc, fa_ret_conv fa = Some rc -> pol_rust rc = RcNone \/ pol_rust rc = RcFromPointerToReferenceWrapper /\ exists m e, pol_type rc = TPtr m e).
  { intros rc E. rewrite (pc_ret_conv _ _ _ _ _ _ _ _ _ _ _ _ _ _ PC) in E. destruct (f_output fn) as [t0|]; [|rewrite CRO in E; discriminate E].
    destruct CRO as (an & s3 & _ & [(_ & conv & -> & CO)|(l & i & ar & q & _ & _ & _ & [(_ & _ & p & s4 & C & ->)|(_ & ->)])]); cbn in E; injection E as <-; auto.
    destruct (_ && _) in CO; [|subst conv; auto]. right.
    unfold return_reference_into_wrapper in CO. destruct (ann_ty an); try discriminate CO; [destruct (extract_pinned_mutable_reference_type _); [|discriminate CO]|]; injection CO as <-; split; cbn; eauto. }
  (* the declaration *)
  match goal with |- match ?x with Some _ => _ | None => _ end <> None => assert (BR : x <> None) end.
  { apply signature_made.
    - intros w Iw. apply in_map_iff in Iw as (p & <- & Ip). cbn [wp_type]. rewrite (pc_fa_params _ _ _ _ _ _ _ _ _ _ _ _ _ _ PC) in Ip. destruct (is_some (fa_wrapper fa)).
      + apply in_map_iff in Ip as (pd & <- & Ip). exact (proj1 (wr_bridge _ _ (W pd Ip))).
      + apply in_map_iff in Ip as (p' & <- & Ip). exact (proj1 (proj1 (proj2 (ARG p' Ip)))).
    - intros t E. destruct (fa_ret fa) as [u|] eqn:FR'; [|discriminate E]. injection E as <-. exact (RET u eq_refl).
    - left. intros w Iw. apply in_map_iff in Iw as (p & <- & Ip). cbn [wp_type]. rewrite (pc_fa_params _ _ _ _ _ _ _ _ _ _ _ _ _ _ PC) in Ip. destruct (is_some (fa_wrapper fa)).
      + apply in_map_iff in Ip as (pd & <- & Ip). exact (proj2 (wr_bridge _ _ (W pd Ip))).
      + apply in_map_iff in Ip as (p' & <- & Ip). exact (proj2 (proj1 (proj2 (ARG p' Ip)))). }
  destruct (add_explicit_lifetime_if_necessary _ _ _ _ _ _) as [bs|]; [|elim BR; reflexivity]. cbv zeta.
  (* the wrapper *)
  match goal with |- match (if _ then ?x else _) with Some _ => _ | None => _ end <> None => assert (WR : x <> None) end.
  { assert (RTF : forall t, (match fa_ret fa with Some t => Some (RTy t) | None => None end) = Some t -> fine t /\ unpinned t).
    { intros t E. destruct (fa_ret fa) as [u|] eqn:FR'; [|discriminate E]. injection E as <-. exact (RET u eq_refl). }
    assert (NM : (forall q, fa_kind fa <> FTraitMethod TMoveConstructor q) -> forall pd, In pd (fa_details fa) -> pol_rust (a_conv pd) <> RcFromPinMoveRefToPtr).
    { intros X pd Ip Y. destruct (DET pd Ip) as (p & I1 & ->). destruct (ARG p I1) as (_ & _ & M & _). destruct (M Y) as (q & Z). exact (X q Z). }
    assert (CM : f_output fn = None -> (forall d q, fa_kind fa <> FMethod (MConstructor d) q) -> forall pd, In pd (fa_details fa) -> a_placement pd = false).
    { intros FO X pd Ip. destruct (a_placement pd) eqn:P; [|reflexivity]. destruct (DET pd Ip) as (p & I1 & ->). destruct (ARG p I1) as (_ & _ & _ & M).
      destruct (M P) as [(d & q & Z)|Z]; [elim (X d q Z)|elim (Z FO)]. }
    assert (TWO : f_output fn = None -> (forall d q, fa_kind fa <> FMethod (MConstructor d) q) -> List.length ps0 = 2 -> 2 <= List.length (filter (fun pd => negb (a_placement pd)) (fa_details fa))).
    { intros FO X L. assert (A : filter (fun pd => negb (a_placement pd)) (fa_details fa) = fa_details fa).
      { pose proof (CM FO X) as Y. clear - Y. induction (fa_details fa) as [|pd r IH]; [reflexivity|]. cbn. rewrite (Y pd (or_introl eq_refl)). cbn. f_equal. apply IH. intros x Hx. apply Y. right. exact Hx. }
      rewrite A, (pc_details _ _ _ _ _ _ _ _ _ _ _ _ _ _ PC), map_length, app_length, FL, L. lia. }
    assert (GO : forall avoid order rt', common_parts np fa avoid order rt' <> None ->
       match common_parts np fa avoid order rt' with Some (sg, body) => Some (Some (RF (wrapper_token (fa_unsafe fa)) (fa_rust fa) sg body)) | None => None end <> None).
    { intros avoid order rt' X. destruct (common_parts np fa avoid order rt') as [[]|]; [discriminate|elim X; reflexivity]. }
    destruct (fa_kind fa) as [|mk q|tk q] eqn:FK; [apply GO| |apply GO].
    - apply parts_common; auto. left. apply NM. discriminate.
    - destruct mk; apply GO; apply parts_common; auto; try (left; apply NM; discriminate); intros t E; injection E as <-; split; exact I.
    - cbn [usual] in US. destruct tk; cbn [trait_order fst snd].
      + destruct US as [_ FO]. apply parts_common; auto; [right; split; [reflexivity|]; apply TWO; auto; discriminate|left; apply NM; discriminate].
      + destruct US as [_ [FO _]]. apply parts_common; auto; [right; split; [reflexivity|]; apply TWO; auto; discriminate|right; split; [|apply CM; auto; discriminate]].
        rewrite (pc_ret _ _ _ _ _ _ _ _ _ _ _ _ _ _ PC). rewrite FO in CRO. rewrite CRO. destruct (is_some _); reflexivity.
      + apply parts_common; auto. left. apply NM. discriminate.
      + apply parts_common; auto. left. apply NM. discriminate.
      + apply parts_common; auto. left. apply NM. discriminate.
      + apply parts_common; auto. left. apply NM. discriminate. }
  destruct (fa_rust_wrapper fa); [|discriminate].
  match goal with |- match ?x with Some _ => _ | None => _ end <> None => destruct x; [discriminate|elim WR; reflexivity] end.
Qed.
Print Assumptions c92_function_partial.

(** ** From end to end *)
From Verif Require Import TypedefsProofs.
(** Typedefs as parsing makes them: with no target worked out yet, and those which come from [use] statements of paths which are names. *)
Definition calm (x : xapi) : Prop :=
  match x_kind x with
  | XTypedef item _ an => match item with TdUse t => tame t | TdType _ _ => True end /\ match an with Some (k, _) => tame (td_target k) | None => True end
  | _ => True
  end.
Definition sized (x : xapi) : Prop := forall sd, x_kind x <> XStruct sd None.
Section Calm.
Variable cfg : acfg.
Lemma calm_typedefs l : Forall calm l -> tame_typedefs (tc_new cfg l).
Proof.
  intros C. unfold tame_typedefs, tc_new. cbn [tc_typedefs].
  assert (V : forall l, Forall calm l -> forall m, (forall q t, In (q, t) m -> tame t) -> forall q t,
    In (q, t) (fold_left (fun m x => match x_kind x with XTypedef _ _ (Some (k, _)) => qset (xname x) (td_target k) m | _ => m end) l m) -> tame t).
  { clear. intros l F. induction F as [|x l CX F IH]; intros m M q t; cbn [fold_left]; [apply M|]. apply IH. clear IH q t. unfold calm in CX.
    destruct (x_kind x); try exact M. destruct an as [[k deps]|]; [|exact M]. destruct CX as [_ CX].
    assert (S : forall m, (forall q t, In (q, t) m -> tame t) -> forall q t, In (q, t) (qset (xname x) (td_target k) m) -> tame t); [|apply S, M].
    clear m M. intros m. induction m as [|[k0 v0] m IH]; intros M q t; cbn [qset].
    - intros [E|[]]. injection E as <- <-. exact CX.
    - destruct (qn_eqb _ _).
      + intros [E|I]; [injection E as <- <-; exact CX | apply (M q t); right; exact I].
      + intros [E|I]; [injection E as <- <-; apply (M k0 v0); left; reflexivity|]. revert I. apply IH. intros q' t' I. apply (M q' t'). right. exact I. }
  specialize (V l C [] ltac:(intros q t [])). set (tds := fold_left _ l []) in *. clearbody tds. clear - V. intros q t. unfold resolve_typedef.
  assert (L : forall fuel enc tn prev, (forall t, prev = Some t -> tame t) -> resolve_loop fuel tds enc tn prev = TdOk (Some t) -> tame t); [|apply L; discriminate].
  induction fuel as [|fuel IH]; intros enc tn prev P H; cbn [resolve_loop] in H; [discriminate|].
  destruct (qget tn tds) as [u|] eqn:G.
  - apply qget_in in G. apply V in G. destruct u as [lead id args| | | | |]; try (injection H as <-; exact G).
    destruct (path_name lead id); [|discriminate]. destruct (qmem _ _); [discriminate|]. destruct (existsb _ _); [discriminate|].
    eapply IH; [|exact H]. intros t0 E. injection E as <-. exact G.
  - injection H as ->. apply P. reflexivity.
Qed.

Section Through.
Variable P : xapi -> Prop.
Hypothesis Pfn : forall n f pv a, P (XA n (XFunction f pv a)).
Hypothesis Pign : forall n e c, P (XA n (XIgnored e c)).
Hypothesis Pcon : forall n d r, P (XA n (XConcrete d r)).
Hypothesis Popq : forall n b, P (XA n (XOpaqueTypedef b)).
Lemma through_extend l v : Forall P v -> Forall P l -> Forall P (xextend cfg v l).
Proof.
  intros V L. rewrite Forall_forall in *. intros y Hy. apply xextend_in in Hy as [H|[H|(x & H & ->)]]; [auto..|]. apply Pign.
Qed.
Lemma through_made v : Forall (FrontProps.made_item cfg) v -> Forall P v.
Proof. apply Forall_impl. intros y [(p & q & def & rs & ->)|(p & q & ->)]; [apply Pcon | apply Pign]. Qed.
Lemma through_convert {S} (f : S -> xapi -> S * out xapi) (A : xapi -> Prop) s s' l r : (forall s s1 x y, f s x = (s1, OOk y) -> A x -> P y) ->
  Forall A l -> x_convert cfg f s l = (s', OOk r) -> Forall P r.
Proof.
  intros Hf L C. assert (F2 : Forall2 (fun x y => A x -> P y) l r).
  { eapply x_convert_forall2; [| |exact C]; intros; [eapply Hf; eauto | apply Pign]. }
  clear C. induction F2 as [|x y l r H F2 IH]; [constructor|]. inversion L; subst. constructor; auto.
Qed.
Lemma through_tdef l la (A : xapi -> Prop) : (forall s s1 x y, tdef_item cfg (tc_new cfg l) s x = (s1, OOk y) -> A x -> P y) -> Forall A l ->
  convert_typedef_targets cfg l = OOk la -> Forall P la.
Proof.
  intros IT L T. unfold convert_typedef_targets in T. destruct (x_convert _ _ _ _) as [[cs extra] [r0|e| |]] eqn:C; try discriminate. injection T as <-.
  apply through_extend; [apply through_extend; [constructor|]|].
  - eapply through_convert; [exact IT|exact L|exact C].
  - apply through_made. change (Forall (FrontProps.made_item cfg) (snd (cs, extra))).
    eapply (FrontProps.x_convert_state cfg (fun s => Forall (FrontProps.made_item cfg) (snd s))); [| |exact C]; [intros; eapply FrontProps.tdef_state; eauto | constructor].
Qed.
Lemma through_pod l la (A : xapi -> Prop) : (forall db s s1 x y, pod_item cfg db (tc_new cfg l) s x = (s1, OOk y) -> A x -> P y) -> Forall A l ->
  analyze_pod_apis cfg l = OOk la -> Forall P la.
Proof.
  intros IT L T. unfold analyze_pod_apis in T. destruct (new_from_apis _ _ _) as [db| | |]; try discriminate.
  destruct (x_convert _ _ _ _) as [[cs extra] [r0|e| |]] eqn:C; try discriminate. injection T as <-.
  apply through_extend; [apply through_extend; [constructor|]|].
  - eapply through_convert; [exact (IT db)|exact L|exact C].
  - apply through_made. change (Forall (FrontProps.made_item cfg) (snd (cs, extra))).
    eapply (FrontProps.x_convert_state cfg (fun s => Forall (FrontProps.made_item cfg) (snd s))); [| |exact C]; [intros; eapply FrontProps.pod_state; eauto | constructor].
Qed.
Lemma through_rest l : Forall P l -> Forall P (create_alloc_and_frees cfg (add_casts cfg (replace_hopeless_typedef_targets cfg l))).
Proof.
  intros L.
  assert (ADD : forall (g : xapi -> list xapi) m, (forall x y, In y (g x) -> P y) -> Forall P m -> Forall P (xextend cfg [] (flat_map (fun x => g x ++ [x]) m))).
  { intros g m G M. apply through_extend; [constructor|]. rewrite Forall_forall in *. intros y Hy. apply in_flat_map in Hy as (x & Hx & Hy).
    apply in_app_iff in Hy as [Hy|[<-|[]]]; [eapply G; eauto | auto]. }
  unfold create_alloc_and_frees, add_casts. apply ADD; [|apply ADD].
  - intros x y Hy. unfold allocs_for in Hy. destruct (x_kind x); try contradiction Hy; (destruct Hy as [<-|[<-|[]]]; apply Pfn).
  - intros x y Hy. unfold casts_for in Hy. destruct (x_kind x); try contradiction Hy. destruct an as [pa|]; [|contradiction Hy].
    apply in_map_iff in Hy as (q & <- & _). apply Pfn.
  - unfold replace_hopeless_typedef_targets. apply through_extend; [constructor|]. rewrite Forall_forall in *. intros y Hy.
    apply in_map_iff in Hy as (x & <- & Hx). apply L in Hx. unfold replace_hopeless. destruct (x_kind x) eqn:K; try exact Hx.
    + destruct err as [[e c]|]; [|exact Hx]. apply Pign.
    + destruct an as [[k deps]|]; [|exact Hx]. destruct (negb (disjoint_q _ deps)).
      * destruct (x_nested x); [apply Pign|apply Popq].
      * destruct (negb (disjoint_q _ deps)); [apply Popq | exact Hx].
Qed.
End Through.

Lemma front_calm l l1 : Forall calm l -> front cfg l = OOk l1 -> Forall calm l1 /\ Forall sized l1.
Proof.
  intros L H. unfold front in H. destruct (convert_typedef_targets cfg l) as [la|e| |] eqn:T; try discriminate.
  destruct (analyze_pod_apis cfg la) as [lb|e| |] eqn:PO; try discriminate. injection H as <-.
  assert (LA : Forall calm la).
  { eapply (through_tdef calm); [intros; exact Logic.I..| |exact L|exact T]. intros s s1 x y E F. unfold tdef_item in E. destruct (x_kind x) eqn:K; try (injection E as _ <-; exact F).
    destruct item as [g t|t].
    - unfold get_replacement_typedef in E. destruct (Nat.ltb 0 g); [discriminate|]. destruct (ac_fatal cfg (xname x)); [discriminate|].
      destruct (convert_type _ _ _ _ _ _) as [cs1 [an'|e| |]] eqn:CV; try discriminate.
      destruct (match ann_ty an' with TPath _ _ _ => _ | _ => _ end) as [[]|]; try discriminate. injection E as _ <-.
      split; [exact Logic.I|]. cbn [x_kind td_target]. apply convert_type_rel in CV. eapply conv_tame; [apply calm_typedefs, L|exact CV].
    - injection E as _ <-. unfold calm in *. rewrite K in F. destruct F as [F _]. split; exact F. }
  split.
  - apply (through_rest calm); [intros; exact Logic.I..|]. eapply (through_pod calm); [intros; exact Logic.I..| |exact LA|exact PO].
    intros db s s1 x y E F. unfold pod_item in E. destruct (x_kind x) eqn:K; try (injection E as _ <-; exact F).
    + destruct (ac_fatal cfg (xname x)); [discriminate|]. injection E as _ <-. exact F.
    + destruct (analyze_struct _ _ _ _ _ _ _ _ _) as [cs1 [[pa made]|e| |]]; try discriminate. injection E as _ <-. exact Logic.I.
  - apply (through_rest sized); [intros; discriminate..|]. eapply (through_pod sized); [intros; discriminate..| |exact LA|exact PO].
    intros db s s1 x y E F. unfold pod_item in E. destruct (x_kind x) eqn:K; try (injection E as _ <-; intros sd; rewrite K; discriminate).
    + destruct (ac_fatal cfg (xname x)); [discriminate|]. injection E as _ <-. intros sd. rewrite K. discriminate.
    + destruct (analyze_struct _ _ _ _ _ _ _ _ _) as [cs1 [[pa made]|e| |]]; try discriminate. injection E as _ <-. discriminate.
Qed.
End Calm.

Lemma all_some_total {A B} (f : A -> option B) l : (forall x, In x l -> f x <> None) -> all_some (map f l) <> None.
Proof.
  induction l as [|x l IH]; intros H; [discriminate|]. cbn [map all_some]. destruct (f x) eqn:E; [|elim (H x (or_introl eq_refl) E)].
  destruct (all_some (map f l)) eqn:E2; [discriminate|]. elim (IH (fun y I => H y (or_intror I)) eq_refl).
Qed.

(** If all went well up to code generation, the Rust code is generated without a panic, whatever the options: provided every
    constructor and every destructor kept is as C++ has them, nothing kept takes or gives the built-in type [Pin], the methods offered to Rust subclasses have
    their receiver, and the name of the C++ header is given if there is one. *)
Theorem c92_generated_partial : forall d l l1 r found fl o order_ty order_key includes header,
  (forall p l, Permutation (order_ty p l) l) -> (forall p l, Permutation (order_key p l) l) -> Forall calm l ->
  front (dc_front d) l = OOk l1 -> analyze_functions_x d l1 = OOk (r, found) -> final_apis d l = Some fl ->
  (forall x f pv fa, In x fl -> x_kind x = XFunction f pv (Some fa) -> usual f (fa_kind fa) /\ forall q, In q (fa_deps fa) -> ~ In q pin_names) ->
  (forall x m, In x fl -> x_kind x = XSubclassTraitItem m -> sm_params m <> []) ->
  (existsb needs_cpp_codegen fl = true -> header <> None) ->
  rs_codegen o order_ty order_key includes header fl <> None.
Proof.
  intros d l l1 r found fl o order_ty order_key includes header Pt Pk CA FR AN FL US RE HD.
  assert (A : analyzed d l = OOk (r, found)) by (unfold analyzed; rewrite FR; exact AN).
  destruct (CppGenProps.c86_conversion _ _ _ _ _ A FL) as [_ CV].
  destruct (front_calm _ _ _ CA FR) as [CL1 SL1]. rewrite Forall_forall in SL1.
  destruct (account_of d l1 r found AN) as (st & AC). destruct (c82_result _ _ _ _ _ AC) as (_ & PR & _).
  assert (SELF : forall m ps, ps <> [] -> with_self m ps <> None) by (intros m [|p ps] N; [elim N; reflexivity | discriminate]).
  assert (MO : forall q ms, methods_of o fl q = Some ms -> forall m, In m ms -> sm_params m <> []).
  { intros q ms E m I. unfold methods_of in E. destruct (qmem q _); [|discriminate]. injection E as <-. apply in_flat_map in I as (x & Hx & I).
    destruct (x_kind x) eqn:K; try contradiction I. destruct (qn_eqb _ _); [|contradiction I]. destruct I as [<-|[]]. apply (RE x _ Hx K). }
  assert (TY : forall name kind mv ds g, generate_type o fl name kind mv ds g <> None).
  { intros name kind mv ds g. unfold generate_type, superclass_traits. destruct (methods_of o fl name) as [ms|] eqn:E.
    - destruct (all_some (map trait_fns ms)) as [tl|] eqn:S.
      + destruct kind; destruct (Nat.ltb 0 g); discriminate.
      + exfalso. revert S. apply all_some_total. intros m I. unfold trait_fns. pose proof (SELF (sm_mut m) _ (MO _ _ E m I)) as N.
        destruct (with_self _ _); [|contradiction]. destruct (sm_pure m); discriminate.
    - destruct kind; destruct (Nat.ltb 0 g); discriminate. }
  assert (GEN : forall x, In x fl -> generate_rs_for_api o fl x <> None).
  { intros x Hx. unfold generate_rs_for_api. destruct (x_kind x) as [| | | | f pv [fa|]| | | |sd [pa|]| |e [c|]| | | | | |] eqn:K; try discriminate; try apply TY.
    - (* a function *)
      unfold gen_function_rs. destruct (CV x Hx) as [IG|[(q & E)|(y & Hy & EI & [EK|(sd & pa & k & _ & E)])]]; [unfold x_ignored in IG; rewrite K in IG; discriminate IG | rewrite K in E; discriminate E | | rewrite K in E; try discriminate E].
      destruct (gen_function (find_non_pod_types fl) fa) eqn:G; [discriminate|]. exfalso. revert G.
      destruct y as [nm ky]. cbn [x_info x_kind] in *. subst ky. rewrite K in Hy.
      destruct (function_analysed d l1 r found AN nm f pv fa Hy) as (name & soph & pre & s & s' & AF).
      destruct (US x f pv fa Hx K) as [U NP]. eapply c92_function_partial; eauto. unfold x_env. cbn [fe_tc]. apply calm_typedefs, CL1.
    - (* a function which was not analysed *)
      exfalso. destruct (CV x Hx) as [IG|[(q & E)|(y & Hy & EI & [EK|(sd & pa & k & _ & E)])]]; [unfold x_ignored in IG; rewrite K in IG; discriminate IG | rewrite K in E; discriminate E | | rewrite K in E; try discriminate E].
      rewrite K in EK. destruct (PR y Hy) as [P|(c & E)]; [|rewrite E in EK; discriminate EK].
      inversion P as [z I NF| | | | | |]; subst; try discriminate EK. apply NF. eexists _, _, _. exact EK.
    - (* a class which was not analysed *)
      exfalso. destruct (CV x Hx) as [IG|[(q & E)|(y & Hy & EI & [EK|(sd' & pa & k & _ & E)])]]; [unfold x_ignored in IG; rewrite K in IG; discriminate IG | rewrite K in E; discriminate E | | rewrite K in E; try discriminate E].
      rewrite K in EK. destruct (PR y Hy) as [P|(c & E)]; [|rewrite E in EK; discriminate EK].
      inversion P as [z I NF| | | | | |]; subst; try discriminate EK. exact (SL1 _ I sd EK).
    - (* a subclass *)
      unfold generate_subclass_rs, generate_subclass. destruct (methods_of o fl _) as [ms|] eqn:E; [|discriminate].
      destruct (all_some (map impl_fn _)) as [[|g tl]|] eqn:S; try discriminate.
      exfalso. revert S. apply all_some_total. intros m I. apply filter_In in I as [I _]. unfold impl_fn. pose proof (SELF (sm_mut m) _ (MO _ _ E m I)) as N.
      destruct (with_self _ _); [|contradiction]. discriminate. }
  unfold rs_codegen. apply all_some_total in GEN. destruct (all_some _) as [parts|]; [|contradiction].
  assert (BI : exists incs, bridge_includes includes header fl = COk incs).
  { unfold bridge_includes. destruct (existsb needs_cpp_codegen fl); [|eauto]. destruct header; [eauto|elim (HD eq_refl eq_refl)]. }
  destruct BI as (incs & ->).
  destruct (NsProps.c41_output_module _ _ _ _ String.eqb key_eqb order_ty order_key
    (combine (map xname fl) (map (fun p => NsModel.RsResult (rp_out p) (rp_impl p) (rp_trait p)) parts)) String.eqb_eq key_eqb_eq Pt Pk) as (out' & -> & _). discriminate.
Qed.
Print Assumptions c92_generated_partial.

From Verif Require Import ParseFullModel ParseFullProofs ParseFullProps CallbacksModel.
(** Renamings in bindgen's output are of things of bindgen's own. *)
Definition own_renamings (items : list pitem) : Prop :=
  forall ns sib segs old new, within [] (items_of_root items) ns sib (PUse ("self" :: "super" :: segs) (PB.URename old new)) ->
  hd old segs <> "std" /\ hd old segs <> "core".
Lemma parsed_calm w items l : x_parse w items = PB.ODone l -> own_renamings items -> Forall calm l.
Proof.
  intros PA OW. apply Forall_forall. intros x I. destruct (c90_contents w items l PA x I) as [C|[E|(ns & sib & it & WI & M)]].
  - inversion C; subst; exact Logic.I.
  - rewrite E. exact Logic.I.
  - inversion M; subst; try exact Logic.I; unfold calm; cbn [x_kind]; try (split; exact Logic.I).
    split; [|exact Logic.I]. split; [split; [|exact Logic.I]; cbn [head_named]; congruence|]. cbn [bad_pin]. intros B. exfalso.
    apply OW in WI as [N1 N2]. apply pin_head in B as [[B|B] _]; contradiction.
Qed.
(** The same from bindgen's items on. *)
Theorem c92_converted_partial : forall w items fl ctors order_ty order_key includes header,
  (forall p l, Permutation (order_ty p l) l) -> (forall p l, Permutation (order_key p l) l) -> own_renamings items ->
  converted w items = Some fl ->
  (forall x f pv fa, In x fl -> x_kind x = XFunction f pv (Some fa) -> usual f (fa_kind fa) /\ forall q, In q (fa_deps fa) -> ~ In q pin_names) ->
  (forall x m, In x fl -> x_kind x = XSubclassTraitItem m -> sm_params m <> []) ->
  (existsb needs_cpp_codegen fl = true -> header <> None) ->
  rs_codegen (rust_options w ctors) order_ty order_key includes header fl <> None.
Proof.
  intros w items fl ctors order_ty order_key includes header Pt Pk OW CV US RE HD. destruct (converted_parts _ _ _ CV) as (l & l1 & r & found & PA & FR & AN & FL).
  exact (c92_generated_partial (driver_cfg w) l l1 r found fl _ _ _ _ _ Pt Pk (parsed_calm w items l PA OW) FR AN FL US RE HD).
Qed.
Print Assumptions c92_converted_partial.

(** ** Cases *)
(** [class Pin { int x; }; class A { int x; }; const int &f(const A &a, Pin p);] *)
Definition demo20 : list pitem :=
  [PMod "root" [PStruct "Pin" [] [BF (Some "x") true an_int]; PStruct "A" [] [BF (Some "x") true an_int];
                PForeignMod [PFFn "f_bindgen_original" [("a", TPath [] "__bindgen_marker_Reference" [TPtr false (TPath ["root"] "A" [])]); ("p", TPath ["root"] "Pin" [])] false
                  (Some (TPath [] "__bindgen_marker_Reference" [TPtr false an_int]))]]].
Definition demo20_fl : list xapi := Eval vm_compute in match converted demo17_w demo20 with Some l => l | _ => [] end.
Lemma panics o order_ty order_key includes header l x : In x l -> generate_rs_for_api o l x = None -> rs_codegen o order_ty order_key includes header l = None.
Proof.
  intros I G. unfold rs_codegen. destruct (all_some _) as [ps|] eqn:A; [|reflexivity]. exfalso. apply all_some_ok in A.
  assert (B : forall m ps, Forall2 (fun x p => generate_rs_for_api o l x = Some p) m ps -> In x m -> False); [|exact (B _ _ A I)].
  clear A I ps. intros m ps A I. induction A as [|y p m ps E A IH]; [destruct I|]. destruct I as [->|I]; [congruence|auto].
Qed.
Ltac usual_now := cbn; first [exact Logic.I | split; [eexists _, _; reflexivity|]; split; [reflexivity|]; let E := fresh in intros ? ? E; cbn in E; injection E as <- <-; eexists DRRef, _, _; split; [constructor|discriminate]
  | split; [eexists _, _; reflexivity|reflexivity] | eexists _, _; reflexivity].
(** A class of the name [Pin] is taken for Rust's [Pin], which has a parameter. Where a lifetime has to be written for the signature of a
    function which takes it, this parameter is not found, and the run ends in a panic, although the headers are valid C++ and nothing is wrong with them. *)
Theorem c92_pin_refuted : exists w items fl, converted w items = Some fl /\ own_renamings items /\
  (forall x f pv fa, In x fl -> x_kind x = XFunction f pv (Some fa) -> usual f (fa_kind fa)) /\
  (forall x m, In x fl -> x_kind x <> XSubclassTraitItem m) /\
  forall ctors order_ty order_key includes header, rs_codegen (rust_options w ctors) order_ty order_key includes header fl = None.
Proof.
  exists demo17_w, demo20, demo20_fl. split; [vm_compute; reflexivity|]. split.
  { intros ns sib segs old new W. apply within_spread in W. vm_compute in W. repeat (destruct W as [W|W]; [discriminate W|]). destruct W. }
  split. { intros x f pv fa H K. cbn in H. repeat (destruct H as [<-|H]; [try discriminate K; injection K as <- <- <-; usual_now|]). destruct H. }
  split. { intros x m H. cbn in H. repeat (destruct H as [<-|H]; [discriminate|]). destruct H. }
  intros ctors order_ty order_key includes header. apply (panics _ _ _ _ _ _ (nth 4 demo20_fl (FrontProps.named0 "" XConst))); [|vm_compute; reflexivity].
  apply (nth_error_In _ 4). vm_compute. reflexivity.
Qed.
Print Assumptions c92_pin_refuted.

(** The case of C90: two classes, an enum, a typedef, functions and a subclass. *)
Example c92_case : own_renamings demo18 /\ converted demo18_w demo18 = Some demo18_fl /\
  (forall x f pv fa, In x demo18_fl -> x_kind x = XFunction f pv (Some fa) -> usual f (fa_kind fa) /\ forall q, In q (fa_deps fa) -> ~ In q pin_names) /\
  (forall x m, In x demo18_fl -> x_kind x = XSubclassTraitItem m -> sm_params m <> []) /\
  (exists x m, In x demo18_fl /\ x_kind x = XSubclassTraitItem m) /\
  (exists x f pv fa, In x demo18_fl /\ x_kind x = XFunction f pv (Some fa) /\ exists q, fa_kind fa = FTraitMethod TMoveConstructor q) /\
  existsb needs_cpp_codegen demo18_fl = true.
Proof.
  split. { intros ns sib segs old new W. apply within_spread in W. vm_compute in W. repeat (destruct W as [W|W]; [discriminate W|]). destruct W. }
  split; [vm_compute; reflexivity|]. split.
  { intros x f pv fa H K. cbn in H. repeat (destruct H as [<-|H]; [first [discriminate K | injection K as <- <- <-; split; [usual_now|
      intros q Hq; cbn in Hq; repeat (destruct Hq as [<-|Hq]; [intros Hp; cbn in Hp; intuition discriminate|]); destruct Hq]]|]). destruct H. }
  split. { intros x m H K. cbn in H. repeat (destruct H as [<-|H]; [try discriminate K; injection K as <-; discriminate|]). destruct H. }
  split. { assert (X : existsb (fun x => match x_kind x with XSubclassTraitItem _ => true | _ => false end) demo18_fl = true) by (vm_compute; reflexivity).
    apply existsb_exists in X as (x & Hx & E). destruct (x_kind x) eqn:K; try discriminate. eauto. }
  split; [|vm_compute; reflexivity].
  assert (X : existsb (fun x => match x_kind x with XFunction _ _ (Some fa) => match fa_kind fa with FTraitMethod TMoveConstructor _ => true | _ => false end | _ => false end) demo18_fl = true) by (vm_compute; reflexivity).
  apply existsb_exists in X as (x & Hx & E). destruct (x_kind x) as [| | | | f pv [fa|]| | | | | | | | | | | |] eqn:K; try discriminate.
  exists x, f, pv, fa. split; [exact Hx|]. split; [exact K|]. destruct (fa_kind fa) as [| |[] q]; try discriminate. eauto.
Qed.
