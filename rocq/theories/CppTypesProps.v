(** C50: the C++ spelling of a type denotes that type. *)
From Verif Require Import Base QNamesModel KnownTypesModel ApiModel TypesModel TypesSpec CppTypesModel CppTypesProofs.

Definition is_str (t : ty) : Prop := t = TPath [] "str" [].
Section Denotes.
  Variable m : name_map.
  (** The C++ type a Rust type stands for. [Pin] is transparent, [&str] is rust::Str, and a Rust
      reference or pointer to const is a C++ one to const. *)
  Inductive denotes : ty -> cty -> Prop :=
  | dn_path : forall lead id args q cs, refers_to (TPath lead id args) q -> map_name m q <> "Pin" ->
      Forall2 denotes args cs -> denotes (TPath lead id args) (CBase (map_name m q) cs)
  | dn_pin : forall lead id a rest q c, refers_to (TPath lead id (a :: rest)) q -> map_name m q = "Pin" ->
      denotes a c -> denotes (TPath lead id (a :: rest)) c
  | dn_str : forall mut lt u, is_str u -> denotes (TRef mut lt u) (CBase "rust::Str" [])
  | dn_ref : forall mut lt u c, ~ is_str u -> denotes u c -> denotes (TRef mut lt u) (CRef (negb mut) c)
  | dn_ptr : forall mut u c, denotes u c -> denotes (TPtr mut u) (CPtr (negb mut) c).

  (** A pointer or reference to const has a name right below it: the C++ the code writes cannot say
      anything else. *)
  Inductive const_on_names : cty -> Prop :=
  | cn_base : forall n args, plain n -> Forall const_on_names args -> const_on_names (CBase n args)
  | cn_ptr : forall k c, const_on_names c -> (k = true -> exists n args, c = CBase n args) -> const_on_names (CPtr k c)
  | cn_ref : forall k c, const_on_names c -> (k = true -> exists n args, c = CBase n args) -> const_on_names (CRef k c).

  (** Every generic argument is a type. *)
  Inductive type_args_only : ty -> Prop :=
  | ta_path : forall lead id args, Forall (fun a => (forall s, a <> TNonType s) /\ type_args_only a) args ->
      type_args_only (TPath lead id args)
  | ta_ref : forall mut lt u, type_args_only u -> type_args_only (TRef mut lt u)
  | ta_ptr : forall mut u, type_args_only u -> type_args_only (TPtr mut u)
  | ta_array : forall u n, type_args_only (TArray u n)
  | ta_other : forall s, type_args_only (TOther s)
  | ta_nontype : forall s, type_args_only (TNonType s).
End Denotes.

Lemma is_str_spec u : is_ident "str" u = true <-> is_str u.
Proof.
  unfold is_str. destruct u as [[|f l] id [|a args]| | | | |]; cbn [is_ident]; try (split; discriminate).
  rewrite String.eqb_eq. split; congruence.
Qed.

Lemma reads_base_inv n args s : reads false s (CBase n args) ->
  plain n /\ ((args = [] /\ s = n) \/
              exists ss, args <> [] /\ Forall2 (reads false) ss args /\ s = n +++ "<" +++ join ", " ss +++ ">").
Proof. intros H. inversion H; subst; split; auto. right; eauto. Qed.
Lemma reads_any_base_inv k n args s : reads k s (CBase n args) -> exists s', reads false s' (CBase n args).
Proof. intros H. inversion H; subst; eauto. Qed.
Lemma reads_true_base s c : reads true s c -> exists n args, c = CBase n args.
Proof. intros H. inversion H; subst; eauto. Qed.

Lemma reads_const_on_names c : forall k s, reads k s c -> const_on_names c.
Proof.
  induction c as [n args IH|k c IH|k c IH] using cty_ind'; intros k' s H.
  - destruct (reads_any_base_inv _ _ _ _ H) as [s' Y]. apply reads_base_inv in Y.
    destruct Y as [P [[-> _]|(ss & _ & F & _)]]; constructor; auto.
    clear -IH F. revert ss F. induction IH as [|a args Ha F IHF]; intros ss H; [constructor|].
    inversion H; subst. constructor; eauto.
  - inversion H; subst. constructor; [eauto|]. intros ->. eapply reads_true_base; eauto.
  - inversion H; subst. constructor; [eauto|]. intros ->. eapply reads_true_base; eauto.
Qed.

Lemma fixed_mut k : mut_string (negb k) = if k then "const " else "".
Proof. destruct k; reflexivity. Qed.

Section Spelling.
  Variable m : name_map.
  Notation spell := (type_to_cpp m).

  Lemma spell_pin lead id a rest q : path_name lead id = Some q -> map_name m q = "Pin" ->
    (forall s, a <> TNonType s) -> spell (TPath lead id (a :: rest)) = spell a.
  Proof.
    intros P E N. cbn [type_to_cpp]. rewrite P. cbv zeta. rewrite E. cbn [String.eqb Ascii.eqb Bool.eqb].
    destruct a; try reflexivity. edestruct N; reflexivity.
  Qed.
  Definition spell_arg (a : ty) : conv string := match a with TNonType _ => COk "" | _ => spell a end.
  Lemma spell_arg_ty a : (forall s, a <> TNonType s) -> spell_arg a = spell a.
  Proof. intros N. destruct a; try reflexivity. edestruct N; reflexivity. Qed.
  Lemma spell_path lead id args q : path_name lead id = Some q -> map_name m q <> "Pin" ->
    spell (TPath lead id args) =
      match args with
      | [] => COk (map_name m q)
      | _ => cbind (cmap spell_arg args) (fun l => COk (map_name m q +++ "<" +++ join ", " l +++ ">"))
      end.
  Proof.
    intros P E. cbn [type_to_cpp]. rewrite P. cbv zeta. apply String.eqb_neq in E. rewrite E. reflexivity.
  Qed.

  Lemma denotes_not_nontype t c s : denotes m t c -> t <> TNonType s.
  Proof. intros H ->. inversion H. Qed.

  (** If C++ can read the type at all, the code writes exactly that. *)
  Lemma spell_denoted t : forall c, denotes m t c -> const_on_names c ->
    exists s, spell t = COk s /\ reads false s c.
  Proof.
    induction t as [lead id args IH|mut lt u IH|mut u IH|u n IH|x|x] using ty_ind'; intros c D W.
    - inversion D as [l i a0 q cs R NP F|l i a0 rest q c' R P DA| | |]; subst.
      + apply path_name_spec in R. rewrite (spell_path _ _ _ _ R NP). inversion W as [n as' PL WA| |]; subst.
        destruct F as [|a c args1 cs Ha F]; [exists (map_name m q); split; [reflexivity | constructor; exact PL]|].
        assert (X : exists ss, Forall2 (fun a s => spell_arg a = COk s) (a :: args1) ss /\ Forall2 (reads false) ss (c :: cs)).
        { assert (F' : Forall2 (denotes m) (a :: args1) (c :: cs)) by (constructor; assumption).
          clear -IH F' WA. revert IH WA. generalize dependent (c :: cs). generalize dependent (a :: args1). clear.
          intros l l' F'. induction F' as [|a c args cs Ha F IHF]; intros IH WA; [exists []; split; constructor|].
          inversion IH; subst. inversion WA; subst. destruct (H1 c Ha H3) as (s & S1 & S2).
          destruct (IHF H2 H4) as (ss & G1 & G2). exists (s :: ss). split; constructor; auto.
          rewrite spell_arg_ty; [exact S1 | intros z; eapply denotes_not_nontype; eauto]. }
        destruct X as (ss & X1 & X2). rewrite (cmap_ok _ _ _ X1). cbn [cbind].
        eexists. split; [reflexivity|]. constructor; [exact PL | discriminate | exact X2].
      + apply path_name_spec in R. rewrite (spell_pin _ _ _ _ _ R P) by (intros z; eapply denotes_not_nontype; eauto).
        inversion IH; subst. apply H1; assumption.
    - cbn [type_to_cpp]. inversion D as [| |mu l v S|mu l v c' NS DU|]; subst.
      + apply is_str_spec in S. rewrite S. exists "rust::Str". split; [reflexivity|]. constructor.
        inversion W; subst; assumption.
      + destruct (is_ident "str" u) eqn:E; [apply is_str_spec in E; contradiction|].
        inversion W as [| |k c'' WC K]; subst. destruct (IH _ DU WC) as (s & S1 & S2). rewrite S1. cbn [cbind].
        eexists. split; [reflexivity|]. rewrite <- sapp_assoc. constructor. destruct mut; cbn [negb mut_string] in *; [exact S2|].
        destruct (K eq_refl) as (n & args & ->). constructor. exact S2.
    - cbn [type_to_cpp]. inversion D as [| | | |mu v c' DU]; subst. inversion W as [|k c'' WC K|]; subst.
      destruct (IH _ DU WC) as (s & S1 & S2). rewrite S1. cbn [cbind].
      eexists. split; [reflexivity|]. rewrite <- sapp_assoc. constructor. destruct mut; cbn [negb mut_string] in *; [exact S2|].
      destruct (K eq_refl) as (n & args & ->). constructor. exact S2.
    - inversion D.
    - inversion D.
    - inversion D.
  Qed.

  Lemma spelled_denotes t : type_args_only t -> forall s, spell t = COk s -> exists c, denotes m t c.
  Proof.
    induction t as [lead id args IH|mut lt u IH|mut u IH|u n IH|x|x] using ty_ind'; intros T s H.
    - assert (PN : exists q, path_name lead id = Some q).
      { cbn [type_to_cpp] in H. destruct (path_name lead id); [eauto | discriminate]. }
      destruct PN as [q PN]. inversion T as [l i a TA| | | | |]; subst.
      destruct (string_dec (map_name m q) "Pin") as [E|N].
      + destruct args as [|a rest].
        * cbn [type_to_cpp] in H. rewrite PN in H. cbv zeta in H. rewrite E in H. discriminate H.
        * destruct (Forall_inv TA) as [NT TT]. rewrite (spell_pin _ _ _ _ _ PN E NT) in H.
          destruct (Forall_inv IH TT s H) as [c D]. exists c. econstructor; eauto.
          apply path_name_spec, PN.
      + rewrite (spell_path _ _ _ _ PN N) in H.
        assert (X : exists cs, Forall2 (denotes m) args cs).
        { destruct args as [|a rest]; [exists []; constructor|].
          destruct (cmap spell_arg (a :: rest)) as [l| |] eqn:C; cbn [cbind] in H; try discriminate.
          apply cmap_ok_inv in C. clear -IH TA C. revert IH TA. generalize dependent (a :: rest). clear.
          intros l' C. induction C as [|a b l bs Hb C IHC]; intros IH TA; [exists []; constructor|].
          destruct (Forall_inv TA) as [NT TT].
          rewrite (spell_arg_ty _ NT) in Hb. destruct (Forall_inv IH TT b Hb) as [c D].
          destruct (IHC (Forall_inv_tail IH) (Forall_inv_tail TA)) as [cs DS]. exists (c :: cs). constructor; assumption. }
        destruct X as [cs X]. exists (CBase (map_name m q) cs). econstructor; eauto. apply path_name_spec, PN.
    - cbn [type_to_cpp] in H. inversion T; subst. destruct (is_ident "str" u) eqn:E.
      + apply is_str_spec in E. eexists. apply dn_str, E.
      + destruct (spell u) as [su| |] eqn:S; cbn [cbind] in H; try discriminate.
        destruct (IH H1 su eq_refl) as [c D]. eexists. apply dn_ref; [|exact D].
        intros X. apply is_str_spec in X. congruence.
    - cbn [type_to_cpp] in H. inversion T; subst. destruct (spell u) as [su| |] eqn:S; cbn [cbind] in H; try discriminate.
      destruct (IH H1 su eq_refl) as [c D]. eexists. apply dn_ptr, D.
    - discriminate H.
    - discriminate H.
    - discriminate H.
  Qed.
End Spelling.

(** The code writes a C++ text meaning the type exactly when const only ever applies to names. *)
Theorem c50_spelling_correct_partial :
  forall m t c, denotes m t c ->
    (exists s, type_to_cpp m t = COk s /\ reads false s c) <-> const_on_names c.
Proof.
  intros m t c D. split.
  - intros (s & _ & R). eapply reads_const_on_names, R.
  - apply spell_denoted, D.
Qed.
Print Assumptions c50_spelling_correct_partial.

(** A C++ text has at most one meaning. *)
Theorem c50_spelling_unambiguous :
  forall s c c', reads false s c -> reads false s c' -> c = c'.
Proof.
  intros s c c' H H'.
  destruct (reads_unambiguous (String.length s) false s c false s c' "" "" (le_n _) H H' I I eq_refl) as (_ & _ & E & _).
  exact E.
Qed.
Print Assumptions c50_spelling_unambiguous.

(** Hence different C++ types are never written alike. *)
Theorem c50_different_types_different_spellings :
  forall m t t' c c' s, denotes m t c -> denotes m t' c' -> const_on_names c -> const_on_names c' ->
    type_to_cpp m t = COk s -> type_to_cpp m t' = COk s -> c = c'.
Proof.
  intros m t t' c c' s D D' W W' E E'.
  destruct (spell_denoted m t c D W) as (s1 & S1 & R1). destruct (spell_denoted m t' c' D' W') as (s2 & S2 & R2).
  assert (s1 = s) by congruence. assert (s2 = s) by congruence. subst. eapply c50_spelling_unambiguous; eauto.
Qed.
Print Assumptions c50_different_types_different_spellings.

(** Types with no C++ counterpart (arrays, function pointers, ...) are rejected, however deep. *)
Theorem c50_unsupported_rejected :
  forall m t, type_args_only t -> ~ (exists c, denotes m t c) -> forall s, type_to_cpp m t <> COk s.
Proof. intros m t T N s E. apply N. eapply spelled_denotes; eauto. Qed.
Print Assumptions c50_unsupported_rejected.

(** Nested types are written with their outer class, in the same namespace. *)
Theorem c50_nested_names :
  forall m lead id q inner, refers_to (TPath lead id []) q -> qget q m = Some inner ->
    join "::" (qn_ns q ++ [inner]) <> "Pin" ->
    type_to_cpp m (TPath lead id []) = COk (join "::" (qn_ns q ++ [inner])).
Proof.
  intros m lead id q inner R G N. apply path_name_spec in R.
  assert (E : map_name m q = join "::" (qn_ns q ++ [inner])) by (unfold map_name; rewrite G; reflexivity).
  rewrite (spell_path m lead id [] q R) by (rewrite E; exact N). rewrite E. reflexivity.
Qed.
Print Assumptions c50_nested_names.

Lemma plain_T : plain "T". Proof. repeat split; discriminate. Qed.
(** A const reference to a pointer comes out as a reference to a pointer to const. *)
Theorem c50_reference_to_pointer_refuted :
  exists t c s c', denotes [] t c /\ type_to_cpp [] t = COk s /\ reads false s c' /\ c <> c'.
Proof.
  exists (TRef false None (TPtr true (TPath ["output"] "T" []))), (CRef true (CPtr false (CBase "T" []))), "const T*&",
    (CRef false (CPtr true (CBase "T" []))).
  split.
  - change true with (negb false) at 1. change false with (negb true) at 2. apply dn_ref; [discriminate|].
    change false with (negb true) at 1. apply dn_ptr.
    change "T" with (map_name [] (QN [] "T")) at 2. apply dn_path; [constructor; auto | vm_compute; discriminate | constructor].
  - split; [vm_compute; reflexivity|]. split; [|discriminate].
    change "const T*&" with (("const T" +++ "*") +++ "&"). apply rd_ref, rd_ptr.
    change "const T" with ("const " +++ "T"). apply rd_const, rd_name, plain_T.
Qed.
(** A generic argument which is not a type is dropped instead of being rejected. *)
Theorem c50_value_argument_dropped_refuted :
  exists t s, ~ (exists c, denotes [] t c) /\ type_to_cpp [] t = COk s.
Proof.
  exists (TPath ["output"] "Arr" [TNonType "3"]), "Arr<>". split; [|vm_compute; reflexivity].
  intros [c D]. inversion D as [l i a q cs R NP F|l i a rest q c' R P DA| | |]; subst.
  - inversion F as [|x y xs ys HX]; subst. exact (denotes_not_nontype _ _ _ "3" HX eq_refl).
  - exact (denotes_not_nontype _ _ _ "3" DA eq_refl).
Qed.

Example c50_nonvacuous :
  exists c s, denotes [(QN ["n"] "Outer_Inner", "Outer::Inner")]
      (TPath ["cxx"] "UniquePtr" [TPath ["output"; "n"] "Outer_Inner" [TPtr false (TPath [] "u8" [])]]) c /\
    const_on_names c /\
    type_to_cpp [(QN ["n"] "Outer_Inner", "Outer::Inner")]
      (TPath ["cxx"] "UniquePtr" [TPath ["output"; "n"] "Outer_Inner" [TPtr false (TPath [] "u8" [])]]) = COk s /\
    reads false s c /\ s = "std::unique_ptr<n::Outer::Inner<const uint8_t*>>".
Proof.
  set (m := [(QN ["n"] "Outer_Inner", "Outer::Inner")]).
  exists (CBase (map_name m (QN ["cxx"] "UniquePtr")) [CBase (map_name m (QN ["n"] "Outer_Inner"))
            [CPtr (negb false) (CBase (map_name m (QN [] "u8")) [])]]).
  assert (W : const_on_names (CBase (map_name m (QN ["cxx"] "UniquePtr")) [CBase (map_name m (QN ["n"] "Outer_Inner"))
            [CPtr (negb false) (CBase (map_name m (QN [] "u8")) [])]])).
  { repeat (constructor; try (vm_compute; repeat split; discriminate)); eauto. }
  assert (D : denotes m (TPath ["cxx"] "UniquePtr" [TPath ["output"; "n"] "Outer_Inner" [TPtr false (TPath [] "u8" [])]])
     (CBase (map_name m (QN ["cxx"] "UniquePtr")) [CBase (map_name m (QN ["n"] "Outer_Inner"))
            [CPtr (negb false) (CBase (map_name m (QN [] "u8")) [])]])).
  { apply dn_path; [constructor; discriminate | vm_compute; discriminate|]. constructor; [|constructor].
    apply dn_path; [constructor; auto | vm_compute; discriminate|]. constructor; [|constructor]. apply dn_ptr.
    apply dn_path; [constructor; discriminate | vm_compute; discriminate | constructor]. }
  destruct (spell_denoted m _ _ D W) as (s & S & R). exists s. repeat split; auto.
  assert (V : type_to_cpp m (TPath ["cxx"] "UniquePtr" [TPath ["output"; "n"] "Outer_Inner" [TPtr false (TPath [] "u8" [])]])
     = COk "std::unique_ptr<n::Outer::Inner<const uint8_t*>>") by (vm_compute; reflexivity).
  rewrite V in S. injection S as <-. reflexivity.
Qed.
