(** C19: abstract classes are found and lose their constructors. *)
From Coq Require Import Permutation.
From Verif Require Import Base ApiModel ApiVecModel ApiVecProofs ApiSpec ErrorReporterModel ErrorReporterProofs DepthFirstModel DepthFirstProofs DepthFirstProps AbstractTypesModel.

(** ** C++: which pure virtual functions are left *)

(** What a virtual function is called in C++, its parameters after [this], whether it is const. *)
Inductive has_signature : api_name -> fn_info -> mutability -> signature -> Prop :=
| hs_named n c f m this ps : fn_params f = this :: ps -> has_signature (AN n (Some c)) f m ((c, ps), m)
| hs_plain n f m this ps : fn_params f = this :: ps -> has_signature (AN n None) f m ((qn_item n, ps), m)
| hs_named0 n c f m : fn_params f = [] -> has_signature (AN n (Some c)) f m ((c, []), m)
| hs_plain0 n f m : fn_params f = [] -> has_signature (AN n None) f m ((qn_item n, []), m).
Inductive declares_pure (l : list api) (q : qname) (s : signature) : Prop :=
| dp i f m : In (API i (KFunction f)) l -> fn_kind_of f = FMethod (MPureVirtual m) q -> has_signature i f m s -> declares_pure l q s.
Inductive defines (l : list api) (q : qname) (s : signature) : Prop :=
| dd i f m : In (API i (KFunction f)) l -> fn_kind_of f = FMethod (MVirtual m) q -> has_signature i f m s -> defines l q s.
Definition base_of (l : list api) (b q : qname) : Prop := exists i s, In (API i (KStruct s)) l /\ an_name i = q /\ In b (st_bases s).
(** [s] is pure virtual in [q]: declared so there, or inherited so from a base and not overridden. *)
Inductive pending (l : list api) : qname -> signature -> Prop :=
| pd_own q s : declares_pure l q s -> pending l q s
| pd_inherited q b s : base_of l b q -> pending l b s -> ~ defines l q s -> pending l q s.
Definition abstract (l : list api) (q : qname) : Prop := exists s, pending l q s.

(** C++ has a class declare a function once; the pass runs before any type is marked. *)
Record well_formed (l : list api) : Prop := {
  wf_names : NoDup (map aname l);
  wf_once : forall q s, declares_pure l q s -> ~ defines l q s;
  wf_unmarked : forall i s, In (API i (KStruct s)) l -> st_kind s <> Abstract
}.
(** Opaque structs derived from further classes are not themselves bases. *)
Definition opaque_bases_are_roots (l : list api) : Prop :=
  forall i s q, In (API i (KStruct s)) l -> st_kind s = Opaque -> base_of l (an_name i) q -> st_bases s = [].

(** ** Lemmas *)

Lemma sig_new_spec i f m s : sig_new i (fn_params f) m = s <-> has_signature i f m s.
Proof.
  unfold sig_new, cpp_effective_name. destruct i as [n [c|]]; destruct (fn_params f) as [|x r] eqn:E; cbn; split.
  - intros <-. now constructor.
  - intros H. inversion H; subst; auto; congruence.
  - intros <-. econstructor; eauto.
  - intros H. inversion H; subst; auto; congruence.
  - intros <-. now constructor.
  - intros H. inversion H; subst; auto; congruence.
  - intros <-. econstructor; eauto.
  - intros H. inversion H; subst; auto; congruence.
Qed.
Lemma strs_eqb_eq a b : strs_eqb a b = true <-> a = b.
Proof.
  revert b. induction a as [|x r IH]; intros [|y r']; cbn; split; intros H; try discriminate; auto.
  - apply andb_true_iff in H. destruct H as [H1 H2]. apply String.eqb_eq in H1. apply IH in H2. congruence.
  - injection H as -> ->. rewrite String.eqb_refl. now apply IH.
Qed.
Lemma sig_eqb_eq a b : sig_eqb a b = true <-> a = b.
Proof.
  destruct a as [[n l] m], b as [[n' l'] m']. unfold sig_eqb. cbn. rewrite !andb_true_iff, String.eqb_eq, strs_eqb_eq.
  split.
  - intros [[-> ->] H]. destruct m, m'; cbn in H; congruence.
  - intros H. injection H as -> -> ->. destruct m'; auto.
Qed.
Lemma sig_mem_In s l : sig_mem s l = true <-> In s l.
Proof.
  unfold sig_mem. rewrite existsb_exists. split.
  - intros (x & I & E). apply sig_eqb_eq in E. now subst.
  - intros I. exists s. split; [auto|now apply sig_eqb_eq].
Qed.
Lemma sig_insert_In s x l : In x (sig_insert s l) <-> x = s \/ In x l.
Proof.
  unfold sig_insert. destruct (sig_mem s l) eqn:E.
  - apply sig_mem_In in E. split; [auto|]. intros [->|H]; auto.
  - rewrite in_app_iff. cbn. split; [intros [H|[H|[]]]|intros [->|H]]; auto.
Qed.

Lemma state_set_same q c st : state_of q (qset q c st) = c.
Proof. unfold state_of. now rewrite qget_qset_same. Qed.
Lemma state_set_other q q' c st : q' <> q -> state_of q' (qset q c st) = state_of q' st.
Proof. intros H. unfold state_of. now rewrite qget_qset_other. Qed.

Lemma methods_noted l q s :
  (In s (fst (state_of q (fold_left note_method l []))) <-> declares_pure l q s) /\
  (In s (snd (state_of q (fold_left note_method l []))) <-> defines l q s).
Proof.
  induction l as [|a l IH] using rev_ind.
  - cbn. split; split; try tauto; intros [i f m [] _ _].
  - rewrite fold_left_app. cbn [fold_left]. destruct IH as [IH1 IH2].
    set (st := fold_left note_method l []) in *.
    assert (MP : forall s', declares_pure l q s' -> declares_pure (l ++ [a]) q s').
    { intros s' [i f m I K H]. apply (dp _ _ _ i f m); auto. apply in_or_app. now left. }
    assert (MD : forall s', defines l q s' -> defines (l ++ [a]) q s').
    { intros s' [i f m I K H]. apply (dd _ _ _ i f m); auto. apply in_or_app. now left. }
    assert (IP : forall s', declares_pure (l ++ [a]) q s' -> declares_pure l q s' \/
       exists i f m, a = API i (KFunction f) /\ fn_kind_of f = FMethod (MPureVirtual m) q /\ sig_new i (fn_params f) m = s').
    { intros s' [i f m I K H]. apply in_app_or in I. destruct I as [I|[I|[]]]; [left; now apply (dp _ _ _ i f m)|right].
      exists i, f, m. split; [auto|]. split; [auto|]. now apply sig_new_spec. }
    assert (ID : forall s', defines (l ++ [a]) q s' -> defines l q s' \/
       exists i f m, a = API i (KFunction f) /\ fn_kind_of f = FMethod (MVirtual m) q /\ sig_new i (fn_params f) m = s').
    { intros s' [i f m I K H]. apply in_app_or in I. destruct I as [I|[I|[]]]; [left; now apply (dd _ _ _ i f m)|right].
      exists i, f, m. split; [auto|]. split; [auto|]. now apply sig_new_spec. }
    assert (LP : forall i f m s', a = API i (KFunction f) -> fn_kind_of f = FMethod (MPureVirtual m) q -> s' = sig_new i (fn_params f) m -> declares_pure (l ++ [a]) q s').
    { intros i f m s' -> K ->. apply (dp _ _ _ i f m); [apply in_or_app; right; now left|auto|now apply sig_new_spec]. }
    assert (LD : forall i f m s', a = API i (KFunction f) -> fn_kind_of f = FMethod (MVirtual m) q -> s' = sig_new i (fn_params f) m -> defines (l ++ [a]) q s').
    { intros i f m s' -> K ->. apply (dd _ _ _ i f m); [apply in_or_app; right; now left|auto|now apply sig_new_spec]. }
    assert (SAME : note_method st a = st -> (forall m i f, a = API i (KFunction f) -> fn_kind_of f <> FMethod (MPureVirtual m) q /\ fn_kind_of f <> FMethod (MVirtual m) q) ->
       (In s (fst (state_of q (note_method st a))) <-> declares_pure (l ++ [a]) q s) /\ (In s (snd (state_of q (note_method st a))) <-> defines (l ++ [a]) q s)).
    { intros E N. rewrite E. split.
      - rewrite IH1. split; [auto|]. intros H. destruct (IP s H) as [H'|(i & f & m & A & K & _)]; [auto|]. now destruct (N m i f A).
      - rewrite IH2. split; [auto|]. intros H. destruct (ID s H) as [H'|(i & f & m & A & K & _)]; [auto|]. now destruct (N m i f A). }
    destruct a as [i k]. unfold note_method in *. cbn [api_kind_of api_info] in *.
    destruct k as [| | | |f| | | | | | | | | | | |]; try (apply SAME; [reflexivity|]; intros m i' f' E; discriminate).
    destruct (fn_kind_of f) as [|mk q0|tk q0] eqn:FK; try (apply SAME; [reflexivity|]; intros m i' f' E; injection E as <- <-; rewrite FK; split; discriminate).
    destruct mk as [| | |m0|m0]; try (apply SAME; [reflexivity|]; intros m i' f' E; injection E as <- <-; rewrite FK; split; discriminate).
    + destruct (qname_eq_dec q q0) as [->|NE].
      * rewrite state_set_same. cbn [fst snd]. split.
        -- rewrite IH1. split; [auto|]. intros H. destruct (IP s H) as [H'|(i' & f' & m' & A & K & _)]; [auto|].
           injection A as <- <-. congruence.
        -- rewrite sig_insert_In, IH2. split.
           ++ intros [->|H]; [|auto]. now apply (LD i f m0).
           ++ intros H. destruct (ID s H) as [H'|(i' & f' & m' & A & K & E)]; [auto|]. injection A as <- <-. left. congruence.
      * rewrite state_set_other by auto. split.
        -- rewrite IH1. split; [auto|]. intros H. destruct (IP s H) as [H'|(i' & f' & m' & A & K & _)]; [auto|].
           injection A as <- <-. congruence.
        -- rewrite IH2. split; [auto|]. intros H. destruct (ID s H) as [H'|(i' & f' & m' & A & K & _)]; [auto|].
           injection A as <- <-. congruence.
    + destruct (qname_eq_dec q q0) as [->|NE].
      * rewrite state_set_same. cbn [fst snd]. split.
        -- rewrite sig_insert_In, IH1. split.
           ++ intros [->|H]; [|auto]. now apply (LP i f m0).
           ++ intros H. destruct (IP s H) as [H'|(i' & f' & m' & A & K & E)]; [auto|]. injection A as <- <-. left. congruence.
        -- rewrite IH2. split; [auto|]. intros H. destruct (ID s H) as [H'|(i' & f' & m' & A & K & _)]; [auto|].
           injection A as <- <-. congruence.
      * rewrite state_set_other by auto. split.
        -- rewrite IH1. split; [auto|]. intros H. destruct (IP s H) as [H'|(i' & f' & m' & A & K & _)]; [auto|].
           injection A as <- <-. congruence.
        -- rewrite IH2. split; [auto|]. intros H. destruct (ID s H) as [H'|(i' & f' & m' & A & K & _)]; [auto|].
           injection A as <- <-. congruence.
Qed.

Lemma fold_sig_insert l u x : In x (fold_left (fun u y => sig_insert y u) l u) <-> In x l \/ In x u.
Proof.
  revert u. induction l as [|y r IH]; cbn; intros u; [tauto|]. rewrite IH, sig_insert_In. intuition.
Qed.
Lemma fold_bases st bases u x :
  In x (fold_left (fun u b => match qget b st with Some bs => fold_left (fun u y => sig_insert y u) (fst bs) u | None => u end) bases u) <->
  In x u \/ exists b, In b bases /\ In x (fst (state_of b st)).
Proof.
  revert u. induction bases as [|b r IH]; intros u; cbn [fold_left]; [split; [auto|intros [H|(b & [] & _)]; auto]|].
  rewrite IH. assert (SB : fst (state_of b st) = match qget b st with Some bs => fst bs | None => [] end) by (unfold state_of, class_state; destruct (qget b st); reflexivity).
  unfold class_state in *. destruct (qget b st) as [bs|].
  - rewrite fold_sig_insert. split.
    + intros [[H|H]|(b' & I & H)]; [right; exists b; rewrite SB; cbn; auto|auto|right; exists b'; cbn; auto].
    + intros [H|(b' & [<-|I] & H)]; [auto|rewrite SB in H; auto|]. right. exists b'. auto.
  - split.
    + intros [H|(b' & I & H)]; [auto|right; exists b'; cbn; auto].
    + intros [H|(b' & [<-|I] & H)]; [auto|rewrite SB in H; destruct H|]. right. exists b'. auto.
Qed.

Definition resolvable (a : api) : Prop := exists i s, a = API i (KStruct s) /\ (st_kind s = Pod \/ st_kind s = NonPod).

Section Run.
Variable l : list api.
Hypothesis WF : well_formed l.
Hypothesis OR : opaque_bases_are_roots l.
Variable ord : list api.
Hypothesis PE : Permutation ord l.
Hypothesis FB : forall before x after, ord = before ++ x :: after -> forall y, In y l -> needs_definition x (aname y) -> In y before.

Lemma unique_name a b : In a l -> In b l -> aname a = aname b -> a = b.
Proof.
  assert (N := wf_names _ WF). revert N. clear. induction l as [|x r IH]; cbn; [tauto|].
  intros N. inversion N as [|y l' NI N']; subst. intros [->|A] [->|B] E; auto.
  - exfalso. apply NI. rewrite E. now apply in_map.
  - exfalso. apply NI. rewrite <- E. now apply in_map.
Qed.

(** Classes not resolved by the pass are their own root. *)
Lemma pending_root q s : (forall a, In a l -> aname a = q -> ~ resolvable a) -> (exists q', base_of l q q') -> pending l q s <-> declares_pure l q s.
Proof.
  intros NR (q' & B). split; [|apply pd_own]. intros H. destruct H as [q s H|q b s (i & si & I & E & IB) H ND]; [auto|].
  exfalso. destruct (st_kind si) eqn:K.
  - apply (NR _ I E). exists i, si. auto.
  - apply (NR _ I E). exists i, si. auto.
  - subst q. rewrite (OR i si q' I K B) in IB. destruct IB.
  - now apply (wf_unmarked _ WF i si I).
Qed.

Definition settled (before : list api) (acc : states * list qname) : Prop :=
  (forall q s, (exists a, In a before /\ aname a = q /\ resolvable a) -> (In s (fst (state_of q (fst acc))) <-> pending l q s)) /\
  (forall q s, ~ (exists a, In a before /\ aname a = q /\ resolvable a) -> (In s (fst (state_of q (fst acc))) <-> declares_pure l q s)) /\
  (forall q s, In s (snd (state_of q (fst acc))) <-> defines l q s) /\
  (forall q, In q (snd acc) <-> (exists a, In a before /\ aname a = q /\ resolvable a) /\ abstract l q).

Lemma resolve_step before a after acc : ord = before ++ a :: after -> settled before acc -> settled (before ++ [a]) (resolve_struct acc a).
Proof.
  intros EO (S1 & S2 & S3 & S4). assert (IA : In a l) by (apply (Permutation_in a PE); rewrite EO; apply in_or_app; right; now left).
  assert (INB : forall b, In b before -> In b l) by (intros b B; apply (Permutation_in b PE); rewrite EO; apply in_or_app; now left).
  assert (NB : ~ In a before).
  { assert (N : NoDup ord).
    { apply (NoDup_map_inv aname). apply (Permutation_NoDup (l := map aname l)); [apply Permutation_map; now apply Permutation_sym|apply (wf_names _ WF)]. }
    rewrite EO in N. apply NoDup_remove_2 in N. intros X. apply N. apply in_or_app. now left. }
  assert (SKIP : ~ resolvable a -> resolve_struct acc a = acc -> settled (before ++ [a]) (resolve_struct acc a)).
  { intros NR ->. assert (EQ : forall q, (exists x, In x (before ++ [a]) /\ aname x = q /\ resolvable x) <-> (exists x, In x before /\ aname x = q /\ resolvable x)).
    { intros q. split; intros (x & I & E & R).
      - apply in_app_or in I. destruct I as [I|[<-|[]]]; [exists x; auto|contradiction].
      - exists x. split; [apply in_or_app; now left|auto]. }
    split; [|split; [|split]].
    - intros q s H. apply S1. now apply EQ.
    - intros q s H. apply S2. now rewrite <- EQ.
    - exact S3.
    - intros q. rewrite S4, EQ. tauto. }
  destruct a as [i k]. destruct acc as [st abs]. unfold resolve_struct in *. cbn [api_kind_of] in *.
  destruct k as [| | | |f| | | |s| | | | | | | |]; try (apply SKIP; [intros (i' & s' & E & _); discriminate|reflexivity]).
  set (a := API i (KStruct s)) in *.
  set (und := filter (fun u => negb (sig_mem u (snd (state_of (aname a) st))))
          (fold_left (fun u b => match qget b st with Some bs => fold_left (fun u y => sig_insert y u) (fst bs) u | None => u end) (st_bases s) (fst (state_of (aname a) st)))) in *.
  assert (MAIN : resolvable a -> settled (before ++ [a]) (qset (aname a) (und, snd (state_of (aname a) st)) st, match und with [] => abs | _ => qinsert (aname a) abs end)).
  2: { destruct (st_kind s) eqn:K; try (apply SKIP; [intros (i' & s' & E & [K'|K']); injection E as <- <-; congruence|reflexivity]);
       apply MAIN; exists i, s; auto. }
  intros R. clear SKIP. cbn [fst snd] in *.
  assert (NP : ~ (exists x, In x before /\ aname x = aname a /\ resolvable x))
    by (intros (x & I & E & _); apply NB; replace a with x; [auto|apply unique_name; auto]).
  assert (U : forall x, In x und <-> pending l (aname a) x).
  { intros x. unfold und. rewrite filter_In, fold_bases, negb_true_iff, <- not_true_iff_false, sig_mem_In, S3, (S2 _ _ NP).
    assert (BASE : forall b, In b (st_bases s) -> (In x (fst (state_of b st)) <-> pending l b x)).
    { intros b IB. assert (BO : base_of l b (aname a)) by (exists i, s; auto).
      destruct (in_dec qname_eq_dec b (map aname (filter (fun y => match api_kind_of y with KStruct si => match st_kind si with Pod | NonPod => true | _ => false end | _ => false end) l))) as [D|D].
      - apply in_map_iff in D. destruct D as (y & EY & FY). apply filter_In in FY. destruct FY as [IY KY].
        assert (RY : resolvable y).
        { destruct y as [iy ky]. cbn in KY. destruct ky as [| | | |g| | | |sy| | | | | | | |]; try discriminate. exists iy, sy. split; [auto|].
          destruct (st_kind sy); auto; discriminate. }
        apply S1. exists y. split; [|auto]. apply (FB before a after EO y IY). rewrite EY. apply nd_base. exact IB.
      - assert (NR : forall y, In y l -> aname y = b -> ~ resolvable y).
        { intros y IY EY (iy & sy & -> & KY). apply D. apply in_map_iff. exists (API iy (KStruct sy)). split; [auto|]. apply filter_In. split; [auto|].
          cbn. destruct KY as [-> | ->]; reflexivity. }
        rewrite S2.
        + symmetry. apply pending_root; eauto.
        + intros (y & IY & EY & RY). apply (NR y); auto. }
    split.
    - intros [[H|(b & IB & H)] ND]; [now apply pd_own|]. apply (pd_inherited l (aname a) b); auto; [exists i, s; auto|]. now apply BASE.
    - intros H. inversion H as [q s0 D|q b s0 (i' & s' & I' & E' & B') P ND]; subst q s0.
      + split; [now left|]. now apply (wf_once _ WF).
      + split; [|auto]. right. exists b. assert (EQ : API i' (KStruct s') = a) by (apply unique_name; auto). injection EQ as -> ->.
        split; [auto|]. now apply BASE. }
  assert (ABS : abstract l (aname a) <-> und <> []).
  { split.
    - intros (x & X) E. apply U in X. rewrite E in X. destruct X.
    - destruct und as [|x r]; [congruence|]. intros _. exists x. apply U. now left. }
  assert (EQ : forall q, (exists x, In x (before ++ [a]) /\ aname x = q /\ resolvable x) <-> q = aname a \/ (exists x, In x before /\ aname x = q /\ resolvable x)).
  { intros q. split.
    - intros (x & I & E & RX). apply in_app_or in I. destruct I as [I|[<-|[]]]; [right; exists x; auto|left; auto].
    - intros [->|(x & I & E & RX)]; [exists a|exists x]; (split; [apply in_or_app|auto]); [right; now left|now left]. }
  split; [|split; [|split]]; cbn [fst snd].
  - intros q x H. apply EQ in H. destruct (qname_eq_dec q (aname a)) as [->|NE].
    + rewrite state_set_same. apply U.
    + rewrite state_set_other by auto. apply S1. destruct H; [contradiction|auto].
  - intros q x H. rewrite EQ in H. assert (NE : q <> aname a) by (intros ->; apply H; now left).
    rewrite state_set_other by auto. apply S2. intros X. apply H. now right.
  - intros q x. destruct (qname_eq_dec q (aname a)) as [->|NE]; [rewrite state_set_same; cbn [snd]|rewrite state_set_other by auto]; apply S3.
  - intros q. rewrite EQ.
    assert (INS : In q (match und with [] => abs | _ => qinsert (aname a) abs end) <-> (q = aname a /\ abstract l (aname a)) \/ In q abs).
    { rewrite ABS. clear. destruct und as [|y r]; [|rewrite qinsert_In]; intuition congruence. }
    rewrite INS, S4. split; [intros [[-> H]|[H1 H2]]; auto|intros [[->|H1] H2]; auto].
Qed.

Lemma resolve_all : settled ord (fold_left resolve_struct ord (fold_left note_method l [], [])).
Proof.
  assert (G : forall rest before acc, ord = before ++ rest -> settled before acc -> settled ord (fold_left resolve_struct rest acc)).
  { induction rest as [|a r IH]; cbn; intros before acc E S; [rewrite app_nil_r in E; now subst|].
    apply (IH (before ++ [a])); [now rewrite <- app_assoc|]. now apply (resolve_step before a r). }
  apply (G ord [] _ eq_refl). split; [|split; [|split]]; cbn [fst snd].
  - intros q s (a & [] & _).
  - intros q s _. apply methods_noted.
  - intros q s. apply methods_noted.
  - intros q. split; [intros []|]. intros [(a & [] & _) _].
Qed.

Lemma abstract_found q : In q (snd (fold_left resolve_struct ord (fold_left note_method l [], []))) <->
  (exists a, In a l /\ aname a = q /\ resolvable a) /\ abstract l q.
Proof.
  destruct resolve_all as (_ & _ & _ & S4). rewrite S4. split; intros [(a & I & E & R) A]; (split; [|auto]); exists a; (split; [|auto]).
  - now apply (Permutation_in a PE).
  - apply (Permutation_in a (Permutation_sym PE) I).
Qed.
End Run.

(** ** The output of the pass *)

Lemma flat_map_refuse builtin l : snd (flat_map_state (convert_item builtin refuse_nested) tt l) = flat_map (fun a => snd (convert_item builtin refuse_nested tt a)) l.
Proof.
  induction l as [|a r IH]; cbn [flat_map_state flat_map]; auto.
  destruct (convert_item builtin refuse_nested tt a) as [[] o] eqn:E. destruct (flat_map_state _ tt r) as [[] os] eqn:F. cbn in *. now rewrite IH.
Qed.
Lemma refuse_one builtin a : exists k, snd (convert_item builtin refuse_nested tt a) = [API (api_info a) k] /\
  (k = api_kind_of a \/ (exists s c, api_kind_of a = KStruct s /\ st_kind s = Abstract /\ an_cpp (api_info a) = Some c /\ contains "::" c = true /\
     k = KIgnored EAbstractNested (Some (ctx_for_item builtin (qn_item (aname a)))))).
Proof.
  unfold convert_item, refuse_nested. destruct a as [i k]. cbn [api_kind_of api_info].
  assert (D : exists k0, snd (tt, api_or_error i (Ok [API i k])) = [API i k0] /\ (k0 = k \/ (exists s c, k = KStruct s /\ st_kind s = Abstract /\ an_cpp i = Some c /\
     contains "::" c = true /\ k0 = KIgnored EAbstractNested (Some (ctx_for_item builtin (qn_item (aname (API i k)))))))) by (exists k; cbn; auto).
  destruct k; try exact D. destruct (an_cpp i) as [c|]; [|exact D]. destruct (st_kind s) eqn:K; try exact D.
  destruct (contains "::" c) eqn:C; [|exact D]. eexists. split; [reflexivity|]. right. exists s, c. auto.
Qed.
Lemma names_after_refuse builtin l : map aname (flat_map (fun a => snd (convert_item builtin refuse_nested tt a)) l) = map aname l.
Proof.
  induction l as [|a r IH]; [reflexivity|]. cbn [flat_map]. destruct (refuse_one builtin a) as (k & E & _). rewrite E. cbn. f_equal. exact IH.
Qed.
Lemma mark_name abs a : aname (mark abs a) = aname a.
Proof. destruct a as [i k]. unfold mark. cbn [api_kind_of]. destruct k; auto. destruct (qmem _ abs); reflexivity. Qed.

Lemma NoDup_filter_names (p : api -> bool) l : NoDup (map aname l) -> NoDup (map aname (filter p l)).
Proof.
  induction l as [|x r IH]; cbn; intros N; auto. inversion N as [|y l' NI N']; subst. destruct (p x); cbn; auto.
  constructor; auto. intros H. apply NI. apply in_map_iff in H. destruct H as (z & E & I). apply filter_In in I. rewrite <- E. now apply in_map.
Qed.

Lemma output_spec builtin v out : NoDup (map aname (av_apis v)) -> mark_types_abstract builtin v = Some out ->
  exists ord abs, fields_and_bases_first api aname field_and_base_deps (av_apis v) = TDone ord /\
    abs = snd (fold_left resolve_struct ord (fold_left note_method (av_apis v) [], [])) /\
    av_apis out = flat_map (fun a => snd (convert_item builtin refuse_nested tt a)) (filter (keep abs) (map (mark abs) (av_apis v))).
Proof.
  intros N H. unfold mark_types_abstract in H.
  destruct (fields_and_bases_first api aname field_and_base_deps (av_apis v)) as [ord| |] eqn:F; [|discriminate..].
  injection H as <-. eexists ord, _. split; [reflexivity|]. split; [reflexivity|].
  set (abs := snd (fold_left resolve_struct ord (fold_left note_method (av_apis v) [], []))). assert (NM : NoDup (map aname (map (mark abs) (av_apis v)))).
  { rewrite map_map. rewrite (map_ext _ aname); [auto|]. intros a. apply mark_name. }
  unfold av_retain. cbn [av_apis]. rewrite from_list_nodup by auto.
  rewrite convert_item_apis_nodup; [cbn; apply flat_map_refuse|apply av_wf_new|].
  cbn [av_apis av_new app]. rewrite flat_map_refuse, names_after_refuse. now apply NoDup_filter_names.
Qed.

Lemma keep_mark abs a : keep abs (mark abs a) = keep abs a.
Proof. destruct a as [i k]. unfold mark, keep. cbn [api_kind_of]. destruct k; auto. destruct (qmem _ abs); reflexivity. Qed.

Lemma mark_fn abs y i f : mark abs y = API i (KFunction f) -> y = API i (KFunction f).
Proof.
  destruct y as [iy ky]. unfold mark. cbn [api_kind_of]. destruct ky; auto. destruct (qmem _ abs); [discriminate|auto].
Qed.

Section Statements.
Variables (builtin : string -> bool) (v out : apivec).
Hypothesis WF : well_formed (av_apis v).
Hypothesis RUN : mark_types_abstract builtin v = Some out.

Lemma order_of ord : fields_and_bases_first api aname field_and_base_deps (av_apis v) = TDone ord ->
  Permutation ord (av_apis v) /\ forall before x after, ord = before ++ x :: after -> forall y, In y (av_apis v) -> needs_definition x (aname y) -> In y before.
Proof.
  intros F. destruct (c03_dependencies_first api aname field_and_base_deps (av_apis v) ord (wf_names _ WF) F) as [P O]. split; [auto|].
  intros b x a E y IY ND. apply (O b x a E). split; [|split; [auto|now apply needs_definition_fb]].
  apply (Permutation_in x P). rewrite E. apply in_or_app. right. now left.
Qed.
End Statements.

(** C19: a class with a pure virtual function left unimplemented is marked abstract, or refused if nested;
    any other class is kept as it was. Partial: opaque classes are outside, see the refutations, and so is
    virtual inheritance. *)
Theorem c19_marked_iff_abstract_partial : forall builtin v out i s,
  well_formed (av_apis v) -> opaque_bases_are_roots (av_apis v) -> mark_types_abstract builtin v = Some out ->
  In (API i (KStruct s)) (av_apis v) -> st_kind s = Pod \/ st_kind s = NonPod ->
  (abstract (av_apis v) (an_name i) ->
     (exists s', In (API i (KStruct s')) (av_apis out) /\ st_kind s' = Abstract /\ st_bases s' = st_bases s) \/
     (exists c ctx, an_cpp i = Some c /\ contains "::" c = true /\ In (API i (KIgnored EAbstractNested ctx)) (av_apis out))) /\
  (~ abstract (av_apis v) (an_name i) -> In (API i (KStruct s)) (av_apis out)).
Proof.
  intros builtin v out i s WF OR RUN I K. destruct (output_spec builtin v out (wf_names _ WF) RUN) as (ord & abs & F & EA & EO).
  destruct (order_of v WF ord F) as [PE FB]. assert (AF := abstract_found (av_apis v) WF OR ord PE FB). rewrite <- EA in AF. rewrite EO.
  assert (FM : forall a, In a (av_apis v) -> keep abs a = true -> forall x, In x (snd (convert_item builtin refuse_nested tt (mark abs a))) ->
     In x (flat_map (fun a => snd (convert_item builtin refuse_nested tt a)) (filter (keep abs) (map (mark abs) (av_apis v))))).
  { intros a IA KA x X. apply in_flat_map. exists (mark abs a). split; [|auto]. apply filter_In. split; [now apply in_map|]. now rewrite keep_mark. }
  specialize (FM _ I eq_refl). split.
  - intros A. assert (Q : qmem (an_name i) abs = true). { apply qmem_In, AF. split; [|auto]. exists (API i (KStruct s)). split; [auto|]. split; [auto|]. exists i, s. auto. }
    unfold mark in FM. cbn [api_kind_of] in FM. change (aname (API i (KStruct s))) with (an_name i) in FM. rewrite Q in FM. cbn [api_info] in FM.
    destruct (refuse_one builtin (API i (KStruct (set_abstract s)))) as (k & E & D). rewrite E in FM. specialize (FM _ (or_introl eq_refl)). cbn [api_info] in FM.
    destruct D as [->|(s' & c & E1 & E2 & E3 & E4 & ->)].
    + left. exists (set_abstract s). auto.
    + right. eexists c, _. split; [exact E3|]. split; [exact E4|]. exact FM.
  - intros NA. assert (Q : qmem (an_name i) abs = false). { apply qmem_nIn. intros X. apply AF in X. now apply NA. }
    unfold mark in FM. cbn [api_kind_of] in FM. change (aname (API i (KStruct s))) with (an_name i) in FM. rewrite Q in FM. cbn [api_info] in FM.
    destruct (refuse_one builtin (API i (KStruct s))) as (k & E & D). rewrite E in FM. specialize (FM _ (or_introl eq_refl)). cbn [api_info] in FM.
    destruct D as [->|(s' & c & E1 & E2 & _)]; [exact FM|]. cbn in E1. injection E1 as <-. destruct K; congruence.
Qed.

Inductive constructs (f : fn_info) (q : qname) : Prop :=
| cs_constructor b : fn_kind_of f = FMethod (MConstructor b) q -> constructs f q
| cs_copy : fn_kind_of f = FTraitMethod TCopyConstructor q -> constructs f q
| cs_move : fn_kind_of f = FTraitMethod TMoveConstructor q -> constructs f q.

(** C19: no constructor of such a class is left; every other function is. *)
Theorem c19_no_constructors_partial : forall builtin v out,
  well_formed (av_apis v) -> opaque_bases_are_roots (av_apis v) -> mark_types_abstract builtin v = Some out ->
  forall i f, In (API i (KFunction f)) (av_apis out) <->
    In (API i (KFunction f)) (av_apis v) /\
    ~ exists q j s, constructs f q /\ In (API j (KStruct s)) (av_apis v) /\ an_name j = q /\ (st_kind s = Pod \/ st_kind s = NonPod) /\ abstract (av_apis v) q.
Proof.
  intros builtin v out WF OR RUN i f. destruct (output_spec builtin v out (wf_names _ WF) RUN) as (ord & abs & F & EA & EO).
  destruct (order_of v WF ord F) as [PE FB]. assert (AF := abstract_found (av_apis v) WF OR ord PE FB). rewrite <- EA in AF. rewrite EO.
  assert (KE : keep abs (API i (KFunction f)) = false <-> exists q, constructs f q /\ In q abs).
  { unfold keep. cbn [api_kind_of]. split.
    - destruct (fn_kind_of f) as [|[|b| | |] q|[] q] eqn:FK; try discriminate; intros H; apply negb_false_iff, qmem_In in H; exists q; (split; [|auto]);
        [now apply (cs_constructor f q b)|now apply cs_copy|now apply cs_move].
    - intros (q & [b E|E|E] & H); rewrite E; apply negb_false_iff, qmem_In; auto. }
  assert (AQ : (exists q, constructs f q /\ In q abs) <-> exists q j s, constructs f q /\ In (API j (KStruct s)) (av_apis v) /\ an_name j = q /\ (st_kind s = Pod \/ st_kind s = NonPod) /\ abstract (av_apis v) q).
  { split.
    - intros (q & C & Q). apply AF in Q. destruct Q as [(a & IA & EQ & (j & s & -> & K)) A]. exists q, j, s. auto.
    - intros (q & j & s & C & IJ & EJ & K & A). exists q. split; [auto|]. apply AF. split; [|auto]. exists (API j (KStruct s)). split; [auto|]. split; [auto|]. exists j, s. auto. }
  rewrite <- AQ, <- KE, not_false_iff_true. rewrite in_flat_map. split.
  - intros (x & IX & CX). apply filter_In in IX. destruct IX as [IX KX]. apply in_map_iff in IX. destruct IX as (y & EY & IY).
    destruct (refuse_one builtin x) as (k & E & D). rewrite E in CX. destruct CX as [CX|[]].
    destruct D as [->|(s & c & E1 & _ & _ & _ & ->)]; [|discriminate].
    assert (EX : x = API i (KFunction f)) by (destruct x; cbn in *; congruence).
    rewrite EX in EY, KX. apply mark_fn in EY. subst y. auto.
  - intros [IV KV]. exists (API i (KFunction f)). split; [|cbn; auto]. apply filter_In. split; [|auto]. apply in_map_iff. exists (API i (KFunction f)). auto.
Qed.

(** ** Where C19 is false *)

Definition mk_struct (n : string) (k : type_kind) (bases : list string) : api :=
  API (AN (QN [] n) None) (KStruct {| st_kind := k; st_bases := map (fun b => QN [] b) bases; st_field_deps := []; st_field_def_deps := [];
                                      st_num_generics := 0; st_ctor_deps := [] |}).
Definition mk_method (n cpp : string) (k : fn_kind) (params : list string) : api :=
  API (AN (QN [] n) (Some cpp)) (KFunction {| fn_ident := n; fn_kind_of := k; fn_bridge_name := n; fn_rust_name := n; fn_params := params; fn_deps := [];
                                      fn_ignore := None; fn_external := true; fn_has_wrapper := false |}).
Definition none_builtin (_ : string) : bool := false.

Lemma nodup_dec_names l : (if (fix nd (l : list qname) := match l with [] => true | x :: r => negb (qmem x r) && nd r end) l then True else False) -> NoDup l.
Proof.
  induction l as [|x r IH]; [constructor|]. cbn. destruct (qmem x r) eqn:E; cbn; [tauto|]. intros H. constructor; [now apply qmem_nIn|auto].
Qed.

(** An opaque class with a pure virtual function is not marked, and its constructor stays. *)
Theorem c19_opaque_refuted : exists v out i s f,
  well_formed (av_apis v) /\ mark_types_abstract none_builtin v = Some out /\
  In (API i (KStruct s)) (av_apis v) /\ abstract (av_apis v) (an_name i) /\ In (API i (KStruct s)) (av_apis out) /\ st_kind s = Opaque /\
  fn_kind_of f = FMethod (MConstructor true) (an_name i) /\ exists j, In (API j (KFunction f)) (av_apis out).
Proof.
  pose (l := [mk_struct "A" Opaque []; mk_method "f" "f" (FMethod (MPureVirtual MMutable) (QN [] "A")) ["*mut A"];
              mk_method "new" "A" (FMethod (MConstructor true) (QN [] "A")) []]).
  exists (av_from_list none_builtin l). eexists _, (AN (QN [] "A") None), _,
    {| fn_ident := "new"; fn_kind_of := FMethod (MConstructor true) (QN [] "A"); fn_bridge_name := "new"; fn_rust_name := "new"; fn_params := []; fn_deps := [];
       fn_ignore := None; fn_external := true; fn_has_wrapper := false |}. split; [|split; [vm_compute; reflexivity|]].
  - change (av_apis (av_from_list none_builtin l)) with l. split.
    + apply nodup_dec_names. vm_compute. exact I.
    + intros q s _ [i f m IN K _]. cbn in IN. destruct IN as [H|[H|[H|[]]]]; try discriminate; injection H as <- <-; discriminate.
    + intros i s [H|[H|[H|[]]]]; try discriminate. injection H as <- <-. discriminate.
  - split; [left; reflexivity|]. split.
    + exists (("f", []), MMutable). apply pd_own. eapply dp; [right; left; reflexivity|reflexivity|]. eapply hs_named. reflexivity.
    + split; [left; reflexivity|]. split; [reflexivity|]. split; [reflexivity|]. eexists. right. right. left. reflexivity.
Qed.
(** A class derived from an opaque class which inherits a pure virtual function is not marked. *)
Theorem c19_opaque_base_refuted : exists v out i s,
  well_formed (av_apis v) /\ mark_types_abstract none_builtin v = Some out /\
  In (API i (KStruct s)) (av_apis v) /\ abstract (av_apis v) (an_name i) /\ In (API i (KStruct s)) (av_apis out) /\ st_kind s = NonPod.
Proof.
  pose (l := [mk_struct "A" NonPod []; mk_struct "B" Opaque ["A"]; mk_struct "C" NonPod ["B"];
              mk_method "f" "f" (FMethod (MPureVirtual MMutable) (QN [] "A")) ["*mut A"]]).
  exists (av_from_list none_builtin l). eexists _, (AN (QN [] "C") None), _. split; [|split; [vm_compute; reflexivity|]].
  - change (av_apis (av_from_list none_builtin l)) with l. split.
    + apply nodup_dec_names. vm_compute. exact I.
    + intros q s _ [i f m IN K _]. cbn in IN. destruct IN as [H|[H|[H|[H|[]]]]]; try discriminate; injection H as <- <-; discriminate.
    + intros i s [H|[H|[H|[H|[]]]]]; try discriminate; injection H as <- <-; discriminate.
  - change (av_apis (av_from_list none_builtin l)) with l.
    assert (ND : forall q s, ~ defines l q s).
    { intros q s [i f m IN K _]. cbn in IN. destruct IN as [H|[H|[H|[H|[]]]]]; try discriminate; injection H as <- <-; discriminate. }
    split; [right; right; left; reflexivity|]. split.
    + exists (("f", []), MMutable). apply (pd_inherited l _ (QN [] "B")); [eexists _, _; split; [right; right; left; reflexivity|split; [reflexivity|now left]]| |apply ND].
      apply (pd_inherited l _ (QN [] "A")); [eexists _, _; split; [right; left; reflexivity|split; [reflexivity|now left]]| |apply ND].
      apply pd_own. eapply dp; [right; right; right; left; reflexivity|reflexivity|]. eapply hs_named. reflexivity.
    + split; [right; right; left; reflexivity|reflexivity].
Qed.

(** Three classes: [A] declares [f] and [g] pure, [B] overrides [f], [C] overrides [g]. [A] and [B] are
    abstract, [C] is not and keeps its constructor. *)
Definition nv_apis : list api :=
  [mk_struct "C" NonPod ["B"]; mk_struct "A" NonPod []; mk_struct "B" NonPod ["A"];
   mk_method "A_f" "f" (FMethod (MPureVirtual MConst) (QN [] "A")) ["&A"; "u32"];
   mk_method "A_g" "g" (FMethod (MPureVirtual MMutable) (QN [] "A")) ["&mut A"];
   mk_method "B_f" "f" (FMethod (MVirtual MConst) (QN [] "B")) ["&B"; "u32"];
   mk_method "C_g" "g" (FMethod (MVirtual MMutable) (QN [] "C")) ["&mut C"];
   mk_method "B_new" "B" (FMethod (MConstructor true) (QN [] "B")) [];
   mk_method "C_new" "C" (FMethod (MConstructor true) (QN [] "C")) []].
Example c19_nonvacuous : exists out,
  well_formed nv_apis /\ opaque_bases_are_roots nv_apis /\
  mark_types_abstract none_builtin (av_from_list none_builtin nv_apis) = Some out /\
  map (fun a => (qn_item (aname a), match api_kind_of a with KStruct s => Some (st_kind s) | _ => None end)) (av_apis out) =
    [("C", Some NonPod); ("A", Some Abstract); ("B", Some Abstract); ("A_f", None); ("A_g", None); ("B_f", None); ("C_g", None); ("C_new", None)].
Proof.
  eexists. split; [|split; [|split; [vm_compute; reflexivity|vm_compute; reflexivity]]].
  - split.
    + apply nodup_dec_names. vm_compute. exact I.
    + intros q s [i f m IN K H] [i' f' m' IN' K' H']. cbn in IN, IN'.
      repeat (destruct IN as [IN|IN]; [try discriminate; injection IN as <- <-; try discriminate|]); [| |destruct IN];
      repeat (destruct IN' as [IN'|IN']; [try discriminate; injection IN' as <- <-; try discriminate|]); try destruct IN'; cbn in K, K'; congruence.
    + intros i s H. cbn in H. repeat (destruct H as [H|H]; [try discriminate; injection H as <- <-; discriminate|]). destruct H.
  - intros i s q H K. cbn in H. repeat (destruct H as [H|H]; [try discriminate; injection H as <- <-; discriminate|]). destruct H.
Qed.

(** Functions with a recorded problem do not get past [discard_ignored_functions]: each is replaced by an
    error under its name, everything else is kept. *)
Theorem c24_problem_functions_discarded : forall builtin v, NoDup (map aname (av_apis v)) ->
  forall a, In a (av_apis (discard_ignored_functions builtin v)) <->
    (In a (av_apis v) /\ forall i f, a = API i (KFunction f) -> fn_ignore f = None) \/
    (exists i f e c, In (API i (KFunction f)) (av_apis v) /\ fn_ignore f = Some (e, c) /\ a = API i (KIgnored e c)).
Proof.
  intros builtin v N a.
  assert (E : av_apis (discard_ignored_functions builtin v) = flat_map (fun x => snd (convert_api discard_fn unchanged unchanged unchanged tt x)) (av_apis v)).
  { unfold discard_ignored_functions, convert_apis.
    assert (FM : forall l, snd (flat_map_state (convert_api discard_fn unchanged unchanged unchanged) tt l) =
                  flat_map (fun x => snd (convert_api discard_fn unchanged unchanged unchanged tt x)) l).
    { induction l as [|x r IH]; [reflexivity|]. cbn [flat_map_state flat_map].
      destruct (convert_api discard_fn unchanged unchanged unchanged tt x) as [[] o]. destruct (flat_map_state _ tt r) as [[] os]. cbn [snd] in *. now rewrite IH. }
    specialize (FM (av_apis v)). destruct (flat_map_state _ tt (av_apis v)) as [s1 l1]. cbn [snd] in *. rewrite FM. rewrite extend_nodup; [reflexivity|apply av_wf_new|].
    cbn [av_apis av_new app]. clear s1 l1 FM. replace (map aname _) with (map aname (av_apis v)); [auto|].
    induction (av_apis v) as [|x r IH]; [reflexivity|]. cbn [flat_map map]. rewrite map_app. inversion N as [|y l' NI N']; subst. rewrite <- IH by auto.
    unfold convert_api, discard_fn, unchanged. destruct x as [i k]. cbn [api_kind_of]. destruct k; try reflexivity. destruct (fn_ignore f) as [[e c]|]; reflexivity. }
  rewrite E, in_flat_map. unfold convert_api, discard_fn, unchanged. split.
  - intros (x & IX & H). destruct x as [i k]. cbn [api_kind_of api_info] in H.
    assert (KEEP : (forall f, k <> KFunction f) -> In a [API i k] -> (In a (av_apis v) /\ forall i f, a = API i (KFunction f) -> fn_ignore f = None) \/
      (exists i f e c, In (API i (KFunction f)) (av_apis v) /\ fn_ignore f = Some (e, c) /\ a = API i (KIgnored e c))).
    { intros NK [<-|[]]. left. split; [auto|]. intros i' f' EQ. injection EQ as _ EQ. now apply NK in EQ. }
    destruct k; try (apply KEEP; [intros f0; discriminate|exact H]).
    destruct (fn_ignore f) as [[e c]|] eqn:FI; destruct H as [<-|[]].
    + right. exists i, f, e, c. auto.
    + left. split; [auto|]. intros i' f' EQ. injection EQ as _ <-. exact FI.
  - intros [[IA NF]|(i & f & e & c & IA & FI & ->)].
    + exists a. split; [auto|]. destruct a as [i k]. cbn [api_kind_of]. destruct k; try (now left). rewrite (NF i f eq_refl). now left.
    + exists (API i (KFunction f)). split; [auto|]. cbn [api_kind_of]. rewrite FI. now left.
Qed.

Print Assumptions c19_marked_iff_abstract_partial.
Print Assumptions c19_no_constructors_partial.
Print Assumptions c19_opaque_refuted.
Print Assumptions c19_opaque_base_refuted.
Print Assumptions c24_problem_functions_discarded.
