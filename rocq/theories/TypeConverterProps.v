(** C60-C64: converting types. *)
From Verif Require Import Base QNamesModel KnownTypesModel KnownTypesProofs ApiModel NameCheckModel TypesModel TypesSpec
  TypedefsModel TypedefsProofs TypedefsProps CppTypesModel ConcreteNamesModel TypeConverterModel TypeConverterProofs.

(** * C60: pointers and references stay what they are, and are reported as such *)

(** What each kind says about the type it comes with. *)
Definition kind_describes (k : tkind) (t : ty) : Prop :=
  match k with
  | TkPointer | TkRValueReference => exists m e, t = TPtr m e
  | TkReference => exists m lt e, t = TRef m lt e
  | TkMutableReference => exists e, t = TPath ["core"; "pin"] "Pin" [TRef true None e]
  | TkSubclassHolder h =>
      exists lead id lead' inner rest, t = TPath lead id (TPath lead' h inner :: rest)
  | TkRegular => forall m e, t <> TPtr m e
  end.

Lemma confirm_holder env gb l h : confirm_payload env gb l = OOk (TkSubclassHolder h) ->
  exists lead inner rest, l = TPath lead h inner :: rest /\ gb = GRust /\ tc_holder env h = true.
Proof.
  destruct l as [|[lead id inner|m lt t|m t|t n|s|s] rest]; cbn; try discriminate.
  destruct (path_name lead id) as [q|] eqn:PN; [|discriminate].
  assert (Hi : qn_item q = id).
  { rewrite path_name_cases in PN. destruct lead as [|f r].
    - destruct (_ || _); [discriminate|]. injection PN as <-. reflexivity.
    - injection PN as <-. reflexivity. }
  assert (Hno : forall gb' l', gb' <> GRust -> confirm_payload env gb' l' <> OOk (TkSubclassHolder h)).
  { clear. intros gb' l' Hg. induction l' as [|[lead id inner|m lt t|m t|t n|s|s] rest IH]; cbn; try discriminate.
    destruct (path_name lead id) as [q|]; [|discriminate].
    destruct (_ && _); [discriminate|]. destruct gb'; try congruence.
    - destruct (permissible_within_unique_ptr q); [exact IH|discriminate].
    - destruct (negb _); [discriminate|]. destruct inner; [exact IH|discriminate]. }
  destruct gb; intros H.
  - destruct (_ && _); [discriminate|]. exfalso. eapply (Hno GNot); [discriminate|exact H].
  - destruct (_ && _); [discriminate|]. destruct (permissible_within_unique_ptr q); [|discriminate].
    exfalso. eapply (Hno GCppPtr); [discriminate|exact H].
  - destruct (_ && _); [discriminate|]. destruct (negb _); [discriminate|]. destruct inner; [|discriminate].
    exfalso. eapply (Hno GCppVector); [discriminate|exact H].
  - cbn in H. destruct (qn_ns q); [|discriminate]. destruct (negb _); [discriminate|].
    destruct (tc_holder env (qn_item q)) eqn:TH; [|discriminate].
    injection H as <-. subst id. exists lead, inner, rest. auto.
Qed.
Lemma confirm_kind env gb l k : confirm_payload env gb l = OOk k ->
  k = TkRegular \/ exists h, k = TkSubclassHolder h.
Proof.
  induction l as [|[lead id inner|m lt t|m t|t n|s|s] rest IH]; cbn; intros H; try discriminate.
  - injection H as <-. auto.
  - destruct (path_name lead id) as [q|]; [|discriminate]. destruct (_ && _); [discriminate|].
    destruct gb.
    + auto.
    + destruct (permissible_within_unique_ptr q); [auto|discriminate].
    + destruct (negb _); [discriminate|]. destruct inner; [auto|discriminate].
    + destruct (qn_ns q); [|discriminate]. destruct (negb _); [discriminate|].
      destruct (tc_holder env (qn_item q)); injection H as <-; eauto.
Qed.

Lemma to_type_path_shape n : exists l i, to_type_path n = TPath l i [].
Proof. unfold to_type_path, td_path. destruct (kt_get n); eauto. Qed.

Lemma actual_kind env c a b : actual env c a b -> kind_describes (ann_kind a) (ann_ty a) ->
  kind_describes (ann_kind b) (ann_ty b).
Proof. intros H K. destruct H; cbn; eauto. Qed.

Lemma plain_kind env ns cs c lead id args cs' a : plain_to env ns cs c lead id args cs' a ->
  kind_describes (ann_kind a) (ann_ty a).
Proof.
  intros P. inversion P; subst; cbn.
  - destruct other; cbn; try congruence; eauto.
  - congruence.
  - destruct (to_type_path_shape n) as (l & i & ->). congruence.
  - match goal with H : confirm_payload _ _ _ = OOk k |- _ => rename H into CP end.
    destruct (confirm_kind _ _ _ _ CP) as [->|(h & ->)]; cbn; [congruence|].
    apply confirm_holder in CP as (ld & inner & rest & -> & _). repeat eexists.
Qed.

(** The kind reported for a converted type is what the converted type is. *)
Theorem c60_kind_describes_type : forall fuel env ns cs c t cs' a,
  convert_type fuel env ns cs c t = (cs', OOk a) -> kind_describes (ann_kind a) (ann_ty a).
Proof.
  intros fuel env ns cs c t cs' a H. apply convert_type_rel in H. induction H; cbn; eauto; try congruence.
  - destruct m; cbn; unfold pin_mut; eauto.
  - eapply actual_kind; eauto. eapply plain_kind; eauto.
Qed.
Print Assumptions c60_kind_describes_type.

(** A raw pointer in the result is always reported as a pointer (or as an rvalue reference), even when
    it was hidden behind a typedef; so it can never look like a plain value. *)
Theorem c60_pointers_reported : forall fuel env ns cs c t cs' a m e,
  convert_type fuel env ns cs c t = (cs', OOk a) -> ann_ty a = TPtr m e ->
  ann_kind a = TkPointer \/ ann_kind a = TkRValueReference.
Proof.
  intros fuel env ns cs c t cs' a m e H E. assert (K := c60_kind_describes_type _ _ _ _ _ _ _ _ H).
  rewrite E in K. destruct (ann_kind a); cbn in K; auto.
  - exfalso. apply (K m e). reflexivity.
  - destruct K as (? & ? & ? & ? & ? & K). discriminate.
  - destruct K as (? & ? & ? & K). discriminate.
  - destruct K as (? & K). discriminate.
Qed.
Print Assumptions c60_pointers_reported.

(** The C++ declarator at the head of a type bindgen wrote: a pointer, an lvalue or rvalue reference
    (each with its constness); the two transparent markers are looked through. *)
Inductive declarator := DPointer | DLRef | DRRef.
Inductive declared : ty -> declarator -> bool -> ty -> Prop :=
| dc_ptr : forall m e, declared (TPtr m e) DPointer m e
| dc_lref : forall m e more, declared (TPath [] "__bindgen_marker_Reference" (TPtr m e :: more)) DLRef m e
| dc_rref : forall m e more, declared (TPath [] "__bindgen_marker_RValueReference" (TPtr m e :: more)) DRRef m e
| dc_through : forall k t more d m e, k = "__bindgen_marker_UnusedTemplateParam" \/ k = "__bindgen_marker_Opaque" ->
    declared t d m e -> declared (TPath [] k (t :: more)) d m e.

(** The Rust form of each declarator over a converted pointee. *)
Definition rust_form (d : declarator) (mut : bool) (pointee : ty) : ty * tkind :=
  match d with
  | DPointer => (TPtr mut pointee, TkPointer)
  | DRRef => (TPtr mut pointee, TkRValueReference)
  | DLRef => if mut then (TPath ["core"; "pin"] "Pin" [TRef true None pointee], TkMutableReference)
             else (TRef false None pointee, TkReference)
  end.

Lemma declared_not_nontype t d m e : declared t d m e -> forall s, t <> TNonType s.
Proof. intros H. inversion H; congruence. Qed.

(** Pointers, references and rvalue references keep their constness and their pointee. *)
Theorem c60_declarators_kept : forall t d m e, declared t d m e ->
  forall fuel env ns cs c cs' a, convert_type fuel env ns cs c t = (cs', OOk a) ->
  exists fuel' i, convert_type fuel' env ns cs WithinReference e = (cs', OOk i) /\
    (ann_ty a, ann_kind a) = rust_form d m (ann_ty i) /\ ann_deps a = ann_deps i /\ ann_extra a = ann_extra i.
Proof.
  intros t d m e D. induction D as [m e|m e more|m e more|k t more d m e Hk D IHD]; intros fuel env ns cs c cs' a H; (destruct fuel as [|k0]; [discriminate|]).
  - cbn [convert_type convert_step] in H. destruct (ensure_pointee e); [discriminate|].
    apply tbind_ok in H as (cs1 & i & H1 & H2). injection H2 as <- <-. exists k0, i. auto.
  - cbn [convert_type convert_step] in H.
    change (tbind (convert_type k0 env ns cs WithinReference e) (fun cs1 i =>
        (cs1, OOk (Ann (if m then pin_mut (ann_ty i) else TRef false None (ann_ty i)) (ann_deps i) (ann_extra i)
                     (if m then TkMutableReference else TkReference)))) = (cs', OOk a)) in H.
    apply tbind_ok in H as (cs1 & i & H1 & H2). injection H2 as <- <-. exists k0, i. destruct m; auto.
  - cbn [convert_type convert_step] in H.
    change (match ensure_pointee e with
            | Some er => (cs, OErr er)
            | None => tbind (convert_type k0 env ns cs WithinReference e) (fun cs1 i =>
                  (cs1, OOk (Ann (TPtr m (ann_ty i)) (ann_deps i) (ann_extra i) TkRValueReference)))
            end = (cs', OOk a)) in H.
    destruct (ensure_pointee e); [discriminate|].
    apply tbind_ok in H as (cs1 & i & H1 & H2). injection H2 as <- <-. exists k0, i. auto.
  - cbn [convert_type convert_step] in H. unfold convert_type_path, unwrap_marker in H.
    assert (N := declared_not_nontype _ _ _ _ D).
    assert (E : convert_type k0 env ns cs c t = (cs', OOk a)).
    { destruct Hk as [-> | ->]; cbn [String.eqb] in H.
      - destruct t; try exact H; exfalso; eapply N; reflexivity.
      - destruct t; try exact H; exfalso; eapply N; reflexivity. }
    apply (IHD k0 env ns cs c cs' a E).
Qed.
Print Assumptions c60_declarators_kept.

(** A typedef of a pointer is still reported as a pointer: the name [q] which the path stands for has a
    chain of typedefs ending in a pointer. *)
Theorem c60_pointer_typedefs_reported : forall fuel env ns cs c ns' id args cs' a m e,
  resolve_typedef (tc_typedefs env) (QN ns' id) = TdOk (Some (TPtr m e)) ->
  convert_type fuel env ns cs c (TPath ("root" :: ns') id args) = (cs', OOk a) ->
  ann_ty a = TPtr m e /\ ann_kind a = TkPointer.
Proof.
  intros fuel env ns cs c ns' id args cs' a m e R H. apply convert_type_rel in H.
  assert (PN : path_name ("root" :: ns') id = Some (QN ns' id)) by (rewrite path_name_cases; reflexivity).
  inversion H; subst; try discriminate.
  { match goal with I : _ \/ _ |- _ => destruct I; discriminate end. }
  match goal with P : plain_to _ _ _ _ _ _ _ _ ?x |- _ => rename x into a0; rename P into P0 end.
  match goal with A : actual _ _ _ _ |- _ => rename A into A0 end.
  inversion P0; subst;
    (match goal with Q : qualify _ _ _ _ = COk _ |- _ => cbn in Q; injection Q as <- <- end);
    (match goal with Q : path_name ("root" :: ns') id = Some ?o |- _ => rewrite PN in Q; injection Q as <- end).
  - match goal with Q : resolve_typedef _ _ = TdOk (Some other) |- _ => rewrite R in Q; injection Q as <- end.
    inversion A0; subst; cbn in *; try discriminate. auto.
  - match goal with Q : resolves _ _ _ _ _ _ _ _ _ _ |- _ => inversion Q; subst; congruence end.
  - match goal with Q : resolves _ _ _ _ _ _ _ _ _ _ |- _ => inversion Q; subst; congruence end.
  - match goal with Q : resolves _ _ _ _ _ _ _ _ _ _ |- _ => inversion Q; subst; congruence end.
Qed.
Print Assumptions c60_pointer_typedefs_reported.

Definition env0 : tc_env :=
  TCE [] [] [] [] [] (fun _ => false) (fun _ => false) (fun _ => false) (fun _ => true) (fun _ => false).
Definition with_typedefs (tds : list (qname * ty)) : tc_env :=
  TCE [] tds [] [] [] (fun _ => false) (fun _ => false) (fun _ => false) (fun _ => true) (fun _ => false).

(** [typedef const A& R;]: converting the target gives [&A], and converting [R] then gives a reference
    which is not reported as one. *)
Theorem c60_reference_typedef_refuted :
  exists fuel tgt target a,
    snd (convert_type fuel env0 [] [] WithinReference tgt) = OOk target /\
    snd (convert_type fuel (with_typedefs [(QN [] "R", ann_ty target)]) [] [] OuterType (TPath ["root"] "R" [])) = OOk a /\
    (exists e, ann_ty a = TRef false None e) /\ ann_kind a = TkRegular.
Proof.
  exists 5, (TPath [] "__bindgen_marker_Reference" [TPtr false (TPath ["root"] "A" [])]).
  eexists. eexists. split; [vm_compute; reflexivity|]. split; [vm_compute; reflexivity|].
  split; [eexists; reflexivity | reflexivity].
Qed.
Print Assumptions c60_reference_typedef_refuted.

(** [typedef A&& R;]: through the typedef, an rvalue reference becomes a plain pointer. *)
Theorem c60_rvalue_typedef_refuted :
  exists fuel tgt target a,
    snd (convert_type fuel env0 [] [] WithinReference tgt) = OOk target /\ ann_kind target = TkRValueReference /\
    snd (convert_type fuel (with_typedefs [(QN [] "R", ann_ty target)]) [] [] OuterType (TPath ["root"] "R" [])) = OOk a /\
    ann_kind a = TkPointer.
Proof.
  exists 5, (TPath [] "__bindgen_marker_RValueReference" [TPtr true (TPath ["root"] "A" [])]).
  eexists. eexists. split; [vm_compute; reflexivity|]. split; [reflexivity|]. split; [vm_compute; reflexivity|]. reflexivity.
Qed.
Print Assumptions c60_rvalue_typedef_refuted.

Example c60_nonvacuous :
  snd (convert_type 9 env0 ["ns"] [] OuterType
    (TPath [] "__bindgen_marker_Reference" [TPtr true (TPath ["root"; "std"] "unique_ptr" [TPath [] "B" []])]))
  = OOk (Ann (TPath ["core"; "pin"] "Pin" [TRef true None (TPath ["cxx"] "UniquePtr" [TPath ["output"; "ns"] "B" []])])
           [QN ["std"] "unique_ptr"; QN ["ns"] "B"] [] TkMutableReference).
Proof. vm_compute. reflexivity. Qed.
