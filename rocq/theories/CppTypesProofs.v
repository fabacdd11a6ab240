From Verif Require Import Base QNamesModel KnownTypesModel ApiModel TypesModel CppTypesModel SynthNamesProofs.

Lemma cmap_ok_inv {A B} (f : A -> conv B) l bs : cmap f l = COk bs -> Forall2 (fun a b => f a = COk b) l bs.
Proof.
  revert bs; induction l as [|a l IH]; cbn; intros bs H; [injection H as <-; constructor|].
  destruct (f a) eqn:E; cbn in H; try discriminate. fold (cmap f) in H. destruct (cmap f l) eqn:E2; cbn in H; try discriminate.
  injection H as <-. constructor; auto.
Qed.
Lemma cmap_ok {A B} (f : A -> conv B) l bs : Forall2 (fun a b => f a = COk b) l bs -> cmap f l = COk bs.
Proof. induction 1 as [|a b l bs H F IH]; cbn; [reflexivity|]. fold (cmap f). rewrite H, IH. reflexivity. Qed.

(** C++ types: a possibly templated name, pointers and references with the constness of what they
    point at. *)
Inductive cty := CBase (n : string) (args : list cty) | CPtr (k : bool) (c : cty) | CRef (k : bool) (c : cty).
Section CtyInd.
  Variable P : cty -> Prop.
  Hypothesis HB : forall n args, Forall P args -> P (CBase n args).
  Hypothesis HP : forall k c, P c -> P (CPtr k c).
  Hypothesis HR : forall k c, P c -> P (CRef k c).
  Fixpoint cty_ind' (c : cty) : P c :=
    match c with
    | CBase n args => HB n args ((fix go (l : list cty) : Forall P l :=
          match l with [] => Forall_nil P | x :: r => Forall_cons x (cty_ind' x) (go r) end) args)
    | CPtr k d => HP k d (cty_ind' d)
    | CRef k d => HR k d (cty_ind' d)
    end.
End CtyInd.

(** Characters with a meaning of their own in this fragment of C++. *)
Definition is_delim (c : ascii) : bool :=
  Ascii.eqb c "<" || Ascii.eqb c ">" || Ascii.eqb c "," || Ascii.eqb c "*" || Ascii.eqb c "&".
(** A C++ type name: no punctuation, not empty, not starting with the word const. *)
Definition plain (n : string) : Prop :=
  any_char is_delim n = false /\ n <> "" /\ starts_with "const " n = false.

(** How C++ reads a type: a leading [const] belongs to the name, not to the pointer. The boolean says
    that the whole is const. *)
Inductive reads : bool -> string -> cty -> Prop :=
| rd_name : forall n, plain n -> reads false n (CBase n [])
| rd_templ : forall n ss args, plain n -> args <> [] -> Forall2 (reads false) ss args ->
    reads false (n +++ "<" +++ join ", " ss +++ ">") (CBase n args)
| rd_const : forall s n args, reads false s (CBase n args) -> reads true ("const " +++ s) (CBase n args)
| rd_ptr : forall k s c, reads k s c -> reads false (s +++ "*") (CPtr k c)
| rd_ref : forall k s c, reads k s c -> reads false (s +++ "&") (CRef k c).

(** Decomposition into constness, name, arguments and a string of [*] and [&]. *)
Definition is_op (c : ascii) : bool := Ascii.eqb c "*" || Ascii.eqb c "&".
Inductive base_str : string -> string -> list cty -> Prop :=
| bs_name : forall n, plain n -> base_str n n []
| bs_templ : forall n ss args, plain n -> args <> [] -> Forall2 (reads false) ss args ->
    base_str (n +++ "<" +++ join ", " ss +++ ">") n args.
Fixpoint apply_ops (k : bool) (ops : string) (c : cty) : cty :=
  match ops with
  | EmptyString => c
  | String o r => apply_ops false r (if Ascii.eqb o "*" then CPtr k c else CRef k c)
  end.
Definition cpre (k : bool) : string := if k then "const " else "".

Lemma apply_ops_snoc k ops o c : ops <> "" -> apply_ops k (ops +++ String o "") c =
  (if Ascii.eqb o "*" then CPtr false (apply_ops k ops c) else CRef false (apply_ops k ops c)).
Proof.
  revert k c; induction ops as [|x ops IH]; intros k c N; [congruence|].
  change (String x ops +++ String o "") with (String x (ops +++ String o "")). cbn [apply_ops].
  destruct ops as [|y ops].
  - cbn [String.append apply_ops]. destruct (Ascii.eqb o "*"); reflexivity.
  - rewrite IH by discriminate. reflexivity.
Qed.
Lemma reads_decompose k s c : reads k s c ->
  exists kb n args ops sb, s = cpre kb +++ sb +++ ops /\ base_str sb n args /\ all_chars is_op ops = true /\
    c = apply_ops kb ops (CBase n args) /\ (ops = "" -> k = kb) /\ (ops <> "" -> k = false).
Proof.
  induction 1 as [n P|n ss args P A F|s n args H IH|k s c H IH|k s c H IH].
  - exists false, n, [], "", n. rewrite app_empty_r. repeat split; auto. constructor; exact P.
  - exists false, n, args, "", (n +++ "<" +++ join ", " ss +++ ">"). rewrite app_empty_r. repeat split; auto.
    constructor; assumption.
  - destruct IH as (kb & n' & args' & ops & sb & E & B & O & C & K1 & K2).
    destruct ops as [|o ops].
    + specialize (K1 eq_refl). subst kb. cbn [cpre apply_ops] in *. injection C as <- <-.
      exists true, n, args, "", sb. rewrite E. repeat split; auto. congruence.
    + exfalso. clear -C. revert C. generalize kb, (CBase n' args'), o. induction ops as [|o' ops IH]; intros k c x H.
      * cbn in H. destruct (Ascii.eqb x "*"); discriminate H.
      * cbn [apply_ops] in H. apply (IH false (if Ascii.eqb x "*" then CPtr k c else CRef k c) o'). exact H.
  - destruct IH as (kb & n & args & ops & sb & E & B & O & C & K1 & K2).
    exists kb, n, args, (ops +++ "*"), sb. subst. rewrite !sapp_assoc. repeat split; auto.
    + rewrite all_chars_app, O. reflexivity.
    + destruct ops as [|o ops]; [rewrite (K1 eq_refl); reflexivity|].
      rewrite apply_ops_snoc by discriminate. rewrite K2 by discriminate. reflexivity.
    + destruct ops; discriminate.
  - destruct IH as (kb & n & args & ops & sb & E & B & O & C & K1 & K2).
    exists kb, n, args, (ops +++ "&"), sb. subst. rewrite !sapp_assoc. repeat split; auto.
    + rewrite all_chars_app, O. reflexivity.
    + destruct ops as [|o ops]; [rewrite (K1 eq_refl); reflexivity|].
      rewrite apply_ops_snoc by discriminate. rewrite K2 by discriminate. reflexivity.
    + destruct ops; discriminate.
Qed.

(** Where a type ends inside a template argument list, or at the end of the text. *)
Definition starts_in (p : ascii -> bool) (r : string) : Prop :=
  match r with EmptyString => True | String c _ => p c = true end.
Definition stop (r : string) : Prop := starts_in (fun c => Ascii.eqb c "," || Ascii.eqb c ">") r.

(** The longest prefix without characters of [p] is determined. *)
Lemma maximal_prefix (p : ascii -> bool) a r b q :
  any_char p a = false -> any_char p b = false -> starts_in p r -> starts_in p q ->
  a +++ r = b +++ q -> a = b /\ r = q.
Proof.
  revert b; induction a as [|c a IH]; intros b Ha Hb Hr Hq E.
  - destruct b as [|d b]; [auto|]. cbn [String.append] in E. subst r. cbn [starts_in any_char] in *.
    rewrite Hr in Hb. discriminate Hb.
  - destruct b as [|d b].
    + cbn [String.append] in E. subst q. cbn [starts_in any_char] in *. rewrite Hq in Ha. discriminate Ha.
    + change (String c a +++ r) with (String c (a +++ r)) in E. change (String d b +++ q) with (String d (b +++ q)) in E.
      injection E as <- E. cbn [any_char] in *. apply orb_false_iff in Ha, Hb.
      destruct (IH b) as [-> ->]; tauto.
Qed.
Lemma ops_prefix a r b q :
  all_chars is_op a = true -> all_chars is_op b = true -> stop r -> stop q -> a +++ r = b +++ q -> a = b /\ r = q.
Proof.
  assert (X : forall c s, is_op c = true -> ~ stop (String c s)).
  { intros c s H1 H2. cbn in H2. unfold is_op in H1. destruct (Ascii.eqb c "*") eqn:A1.
    - apply Ascii.eqb_eq in A1; subst; discriminate H2.
    - cbn in H1. apply Ascii.eqb_eq in H1; subst; discriminate H2. }
  revert b; induction a as [|c a IH]; intros b Ha Hb Hr Hq E.
  - destruct b as [|d b]; [auto|]. cbn [String.append] in E. subst r. cbn [all_chars] in Hb.
    apply andb_true_iff in Hb. destruct (X d (b +++ q)); tauto.
  - destruct b as [|d b].
    + cbn [String.append] in E. subst q. cbn [all_chars] in Ha. apply andb_true_iff in Ha. destruct (X c (a +++ r)); tauto.
    + change (String c a +++ r) with (String c (a +++ r)) in E. change (String d b +++ q) with (String d (b +++ q)) in E.
      injection E as <- E. cbn [all_chars] in *. apply andb_true_iff in Ha, Hb.
      destruct (IH b) as [-> ->]; tauto.
Qed.

Lemma base_head sb n args : base_str sb n args ->
  exists t, sb = n +++ t /\ plain n /\
    ((t = "" /\ args = []) \/ exists ss, args <> [] /\ Forall2 (reads false) ss args /\ t = "<" +++ join ", " ss +++ ">").
Proof.
  intros [n' P|n' ss a P A F].
  - exists "". rewrite app_empty_r. auto.
  - eexists. split; [reflexivity|]. split; [exact P|]. right. exists ss. auto.
Qed.
Lemma delim_after t ops r : (t = "" \/ exists x, t = "<" +++ x) -> all_chars is_op ops = true -> stop r ->
  starts_in is_delim (t +++ ops +++ r).
Proof.
  intros [->|[x ->]] O R; [|reflexivity]. cbn [String.append]. destruct ops as [|o ops].
  - cbn [String.append]. destruct r as [|c r]; [exact I|]. cbn in *. unfold is_delim.
    destruct (Ascii.eqb c ","); [rewrite !orb_true_r; reflexivity|]. cbn in R. rewrite R, orb_true_r. reflexivity.
  - cbn [all_chars] in O. apply andb_true_iff in O. destruct O as [O _]. cbn. unfold is_delim, is_op in *.
    rewrite <- !orb_assoc. rewrite O, !orb_true_r. reflexivity.
Qed.
(** "const " cannot be mistaken for the start of a name. *)
Lemma const_not_name n t s : plain n -> starts_in is_delim t -> n +++ t <> "const " +++ s.
Proof.
  intros (D & N & C) T E. destruct (sapp_cases _ _ _ _ E) as [[x [E1 E2]]|[x [E1 E2]]].
  - assert (X : starts_with "const " n = true) by (apply starts_with_spec; eauto). congruence.
  - destruct x as [|c x].
    + rewrite app_empty_r in E1. subst n. cbn in C. discriminate C.
    + subst t. cbn [String.append starts_in] in T.
      assert (Y : any_char is_delim "const " = true); [|discriminate Y].
      rewrite E1, any_char_app. cbn [any_char]. rewrite T. apply orb_true_r.
Qed.

Lemma reads_nonempty k s c : reads k s c -> s <> "".
Proof.
  intros H. destruct (reads_decompose _ _ _ H) as (kb & n & args & ops & sb & E & B & _).
  destruct (base_head _ _ _ B) as (t & -> & (_ & N & _) & _). subst s. intros X.
  destruct kb; [discriminate X|]. cbn in X. destruct n; [congruence | discriminate X].
Qed.

Lemma reads_unambiguous : forall len k s c k' s' c' r r',
  String.length s <= len -> reads k s c -> reads k' s' c' -> stop r -> stop r' -> s +++ r = s' +++ r' ->
  k = k' /\ s = s' /\ c = c' /\ r = r'.
Proof.
  induction len as [|len IH]; intros k s c k' s' c' r r' L H H' R R' E.
  - exfalso. apply reads_nonempty in H. destruct s; [congruence | cbn in L; lia].
  - destruct (reads_decompose _ _ _ H) as (kb & n & args & ops & sb & S & B & O & C & K1 & K2).
    destruct (reads_decompose _ _ _ H') as (kb' & n' & args' & ops' & sb' & S' & B' & O' & C' & K1' & K2').
    destruct (base_head _ _ _ B) as (t & T & P & TT). destruct (base_head _ _ _ B') as (t' & T' & P' & TT').
    assert (Q : t = "" \/ exists x, t = "<" +++ x) by (destruct TT as [[-> _]|(ss & _ & _ & ->)]; eauto).
    assert (Q' : t' = "" \/ exists x, t' = "<" +++ x) by (destruct TT' as [[-> _]|(ss & _ & _ & ->)]; eauto).
    pose proof (delim_after t ops r Q O R) as DA. pose proof (delim_after t' ops' r' Q' O' R') as DA'.
    assert (EE : cpre kb +++ n +++ (t +++ ops +++ r) = cpre kb' +++ n' +++ (t' +++ ops' +++ r')).
    { subst s s' sb sb'. rewrite !sapp_assoc in E. exact E. }
    assert (KB : kb = kb').
    { destruct kb, kb'; auto; exfalso; cbn [cpre String.append] in EE.
      - exact (const_not_name n' _ _ P' DA' (eq_sym EE)).
      - exact (const_not_name n _ _ P DA EE). }
    subst kb'. apply sapp_inj_l in EE.
    destruct (maximal_prefix is_delim n _ n' _ (proj1 P) (proj1 P') DA DA' EE) as [<- EQ].
    assert (TA : t = t' /\ args = args' /\ ops +++ r = ops' +++ r').
    { destruct TT as [[-> ->]|(ss & A & F & Tt)]; destruct TT' as [[-> ->]|(ss' & A' & F' & Tt')].
      - auto.
      - exfalso. subst t'. cbn [String.append] in EQ. destruct ops as [|o ops].
        + cbn [String.append] in EQ. rewrite EQ in R. discriminate R.
        + cbn [String.append] in EQ. injection EQ as -> _. discriminate O.
      - exfalso. subst t. cbn [String.append] in EQ. destruct ops' as [|o ops'].
        + cbn [String.append] in EQ. rewrite <- EQ in R'. discriminate R'.
        + cbn [String.append] in EQ. injection EQ as <- _. discriminate O'.
      - subst t t'. rewrite !sapp_assoc in EQ. apply sapp_inj_l in EQ.
        assert (LL : String.length (join ", " ss) <= len).
        { subst s sb. rewrite !slen_app in L. cbn [String.length] in L.
          destruct P as (_ & N & _). destruct n; [congruence|]. cbn [String.length] in L. lia. }
        assert (G : ss = ss' /\ args = args' /\ ops +++ r = ops' +++ r').
        { clear -IH F F' A A' EQ LL. revert ss' args' F' A' EQ. revert A LL.
          induction F as [|x a ss args Hx F IHF]; intros A LL ss' args' F' A' EQ; [congruence|]. clear A.
          destruct F' as [|x' a' ss' args' Hx' F']; [congruence|]. clear A'.
          assert (J : forall y l u, join ", " (y :: l) +++ ">" +++ u =
                       y +++ (match l with [] => ">" +++ u | _ => ", " +++ (join ", " l +++ ">" +++ u) end)).
          { intros y l u. destruct l; [reflexivity|].
            change (join ", " (y :: s :: l)) with (y +++ ", " +++ join ", " (s :: l)). rewrite !sapp_assoc. reflexivity. }
          rewrite !J in EQ.
          assert (Lx : String.length x <= len).
          { destruct ss; [exact LL|]. change (join ", " (x :: s :: ss)) with (x +++ ", " +++ join ", " (s :: ss)) in LL.
            rewrite slen_app in LL. lia. }
          assert (ST : forall (l : list string) u, stop (match l with [] => ">" +++ u | _ => ", " +++ (join ", " l +++ ">" +++ u) end)).
          { intros [|] u; reflexivity. }
          destruct (IH _ _ _ _ _ _ _ _ Lx Hx Hx' (ST ss _) (ST ss' _) EQ) as (_ & <- & <- & EQ2).
          destruct F as [|y b ss args Hy F]; destruct F' as [|y' b' ss' args' Hy' F']; try discriminate EQ2.
          - cbn [String.append] in EQ2. injection EQ2 as EQ2. auto.
          - cbn [String.append] in EQ2. injection EQ2 as EQ2.
            destruct (IHF ltac:(discriminate)) with (ss' := y' :: ss') (args' := b' :: args') as (G1 & G2 & G3).
            + change (join ", " (x :: y :: ss)) with (x +++ ", " +++ join ", " (y :: ss)) in LL.
              rewrite !slen_app in LL. lia.
            + constructor; assumption.
            + discriminate.
            + exact EQ2.
            + rewrite G1, G2. auto. }
        destruct G as (-> & -> & G). auto. }
    destruct TA as (<- & <- & EO). destruct (ops_prefix _ _ _ _ O O' R R' EO) as [<- <-].
    subst s s' sb sb' c c'. repeat split.
    destruct ops as [|o ops]; [rewrite (K1 eq_refl), (K1' eq_refl) | rewrite (K2 ltac:(discriminate)), (K2' ltac:(discriminate))]; reflexivity.
Qed.
