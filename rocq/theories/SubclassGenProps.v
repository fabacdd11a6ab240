(** Theorems about the code generated for Rust subclasses: C55 (peer constructors) and C74 (the traits,
    their implementations, the calls from C++ and the C++ class fit together). *)
From Verif Require Import Base ApiModel TypesModel ConversionModel TypeConverterModel TypeConverterProps FnAnalysisModel FnCodegenModel
  SynthNamesModel KnownTypesModel FnAnalysisProofs FnAnalysisProps SubclassGenModel.
Open Scope string_scope.
Open Scope list_scope.

(** * Specification *)

(** What a caller or an implementor sees of a function. *)
Definition head (f : gfun) : bool * string * list rparam * option ty := (g_unsafe f, g_name f, g_params f, g_ret f).
(** The names of the parameters other than [self]. *)
Definition arg_names (ps : list rparam) : list string :=
  flat_map (fun p => match p with PSelf _ => [] | PArg n _ => [n] end) ps.
(** Every method has a receiver. *)
Definition received (apis : list sapi) : Prop := forall n m, In (STraitItem n m) apis -> sm_params m <> [].

(** * Lemmas *)

Lemma all_some_ok {A B} (f : A -> option B) : forall l r, all_some (map f l) = Some r <-> Forall2 (fun x y => f x = Some y) l r.
Proof.
  induction l as [|x l IH]; intros r; cbn.
  - split; [intros [= <-]; constructor|intros F; inversion F; reflexivity].
  - destruct (f x) as [y|] eqn:E.
    + destruct (all_some (map f l)) as [r'|] eqn:AS.
      * split; [intros [= <-]; constructor; [exact E|apply IH; reflexivity]|].
        intros F. inversion F; subst. rewrite E in H1. injection H1 as ->. apply IH in H3. injection H3 as ->. reflexivity.
      * split; [discriminate|]. intros F. inversion F; subst. apply IH in H3. discriminate.
    + split; [discriminate|]. intros F. inversion F; subst. congruence.
Qed.
Lemma Forall2_in_r {A B} (R : A -> B -> Prop) l r : Forall2 R l r -> forall y, In y r -> exists x, In x l /\ R x y.
Proof. induction 1 as [|x y l r H F IH]; intros z I; [contradiction|]. destruct I as [<-|I]; [eexists; split; [left; reflexivity|exact H]|]. destruct (IH _ I) as (w & ? & ?). exists w. split; [right|]; assumption. Qed.
Lemma Forall2_in_l {A B} (R : A -> B -> Prop) l r : Forall2 R l r -> forall x, In x l -> exists y, In y r /\ R x y.
Proof. induction 1 as [|x y l r H F IH]; intros z I; [contradiction|]. destruct I as [<-|I]; [eexists; split; [left; reflexivity|exact H]|]. destruct (IH _ I) as (w & ? & ?). exists w. split; [right|]; assumption. Qed.

Lemma generate_all_in policy sups apis out : generate_all policy sups apis = Some out ->
  forall o, In o out <-> exists a l, In a apis /\ generate_api policy sups apis a = Some l /\ In o l.
Proof.
  unfold generate_all. destruct (all_some _) as [ls|] eqn:E; [|discriminate]. intros [= <-] o. apply all_some_ok in E.
  rewrite in_concat. split.
  - intros (l & I & IO). destruct (Forall2_in_r _ _ _ E _ I) as (a & IA & G). eauto.
  - intros (a & l & IA & G & IO). destruct (Forall2_in_l _ _ _ E _ IA) as (l' & I & G'). rewrite G in G'. injection G' as <-. eauto.
Qed.
Lemma generate_all_some policy sups apis out : generate_all policy sups apis = Some out ->
  forall a, In a apis -> exists l, generate_api policy sups apis a = Some l.
Proof.
  unfold generate_all. destruct (all_some _) as [ls|] eqn:E; [|discriminate]. intros _ a I. apply all_some_ok in E.
  destruct (Forall2_in_l _ _ _ E _ I) as (l & _ & G). eauto.
Qed.

(** The two lists of functions made from a list of methods. *)
Lemma trait_impl ms : forall l fns, all_some (map trait_fns ms) = Some l ->
  all_some (map impl_fn (filter (fun m => negb (sm_pure m)) ms)) = Some fns ->
  map head fns = map head (flat_map (fun p => match fst p with Some f => [f] | None => [] end) l).
Proof.
  induction ms as [|m ms IH]; intros l fns.
  - cbn. intros [= <-] [= <-]. reflexivity.
  - cbn [map all_some filter]. destruct (trait_fns m) as [p|] eqn:T; [|discriminate].
    destruct (all_some (map trait_fns ms)) as [r|] eqn:A; [|discriminate]. intros [= <-].
    unfold trait_fns in T. destruct (with_self (sm_mut m) (sm_params m)) as [ps|] eqn:W; [|discriminate].
    destruct (sm_pure m); cbn [negb].
    + injection T as <-. cbn. apply (IH _ _ eq_refl).
    + cbn [map all_some]. unfold impl_fn at 1. rewrite W. injection T as <-.
      destruct (all_some (map impl_fn _)) as [r'|] eqn:B; [|discriminate]. intros [= <-]. cbn. f_equal. apply (IH _ _ eq_refl eq_refl).
Qed.


Definition super_fns (l : list (option gfun * gfun)) : list gfun := flat_map (fun p => match fst p with Some f => [f] | None => [] end) l.

Lemma supers_inj a b : supers_trait_name a = supers_trait_name b -> a = b.
Proof.
  destruct a as [na ia], b as [nb ib]. unfold supers_trait_name. cbn. intros H. injection H as -> E.
  apply sapp_inj_r in E as ->. reflexivity.
Qed.
Lemma methods_inj a b : methods_trait_name a = methods_trait_name b -> a = b.
Proof.
  destruct a as [na ia], b as [nb ib]. unfold methods_trait_name. cbn. intros H. injection H as -> E.
  apply sapp_inj_r in E as ->. reflexivity.
Qed.
Lemma supers_not_methods a b : supers_trait_name a <> methods_trait_name b.
Proof.
  unfold supers_trait_name, methods_trait_name. intros H. injection H as _ E.
  change "_methods" with ("_" +++ "methods") in E. rewrite <- sapp_assoc in E.
  assert (L := f_equal String.length E). rewrite !slen_app in L. cbn in L.
  apply sapp_eq_len in E; [destruct E as [_ E]; discriminate|]. rewrite slen_app. cbn. lia.
Qed.

Lemma otrait_inj a b c a' b' c' : OTrait a b c = OTrait a' b' c' -> a = a' /\ b = b' /\ c = c'.
Proof. intros H. split; [|split]; congruence. Qed.
(** What a type contributes. *)
Lemma type_out policy sups apis q abs n l : generate_api policy sups apis (SType q abs n) = Some l ->
  forall o, In o l -> exists ms fs, superclass_methods sups apis q = Some ms /\ all_some (map trait_fns ms) = Some fs /\
    (abs = false \/ n = 0) /\
    (o = OTrait (methods_trait_name q) (match super_fns fs with [] => None | _ => Some (supers_trait_name q) end) (map snd fs) \/
     o = OTrait (supers_trait_name q) None (super_fns fs) /\ super_fns fs <> []).
Proof.
  cbn [generate_api]. destruct (superclass_traits q _) as [r|] eqn:E; [|discriminate]. intros H o I.
  assert (V : (abs = false \/ n = 0) /\ l = r).
  { destruct abs, n; cbn in H; injection H as <-; auto. contradiction. }
  destruct V as [V ->]. unfold superclass_traits in E.
  destruct (superclass_methods sups apis q) as [ms|]; [|injection E as <-; contradiction].
  destruct (all_some (map trait_fns ms)) as [fs|] eqn:A; [|discriminate]. exists ms, fs. split; [reflexivity|]. split; [exact A|].
  split; [exact V|]. fold (super_fns fs) in E. destruct (super_fns fs) as [|f r0] eqn:SF; injection E as <-.
  - destruct I as [<-|[]]. left. reflexivity.
  - destruct I as [<-|[<-|[]]]; [right; split; [reflexivity|discriminate]|left; reflexivity].
Qed.
Lemma type_has policy sups apis out q abs n ms : generate_all policy sups apis = Some out -> In (SType q abs n) apis ->
  abs = false \/ n = 0 -> superclass_methods sups apis q = Some ms ->
  exists fs, all_some (map trait_fns ms) = Some fs /\
    In (OTrait (methods_trait_name q) (match super_fns fs with [] => None | _ => Some (supers_trait_name q) end) (map snd fs)) out /\
    (super_fns fs <> [] -> In (OTrait (supers_trait_name q) None (super_fns fs)) out).
Proof.
  intros G I V M. destruct (generate_all_some _ _ _ _ G _ I) as (l & GA).
  assert (L : forall o, In o l -> In o out). { intros o IO. apply (generate_all_in _ _ _ _ G). eauto. }
  cbn [generate_api] in GA. rewrite M in GA. cbn [superclass_traits] in GA.
  destruct (all_some (map trait_fns ms)) as [fs|]; [|discriminate]. exists fs. split; [reflexivity|].
  fold (super_fns fs) in GA.
  assert (E : abs && negb (Nat.eqb n 0) = false). { destruct V as [->| ->]; [reflexivity|apply andb_false_r]. }
  rewrite E in GA. injection GA as <-. split.
  - apply L. destruct (super_fns fs); cbn; auto.
  - intros NE. apply L. destruct (super_fns fs); [contradiction|cbn; auto].
Qed.
Lemma not_type_out policy sups apis a l tr s fns : generate_api policy sups apis a = Some l -> In (OTrait tr s fns) l ->
  exists q abs n, a = SType q abs n.
Proof.
  destruct a as [? ? ? ?|? ?|? ? d|sub sup|q abs n|?]; intros H I; try (injection H as <-; cbn in I; intuition discriminate); eauto.
  cbn in H. unfold generate_subclass in H.
  assert (C : forall b, ~ In (OTrait tr s fns) (if b : bool then [OPeerConstructor (qn_item sub) (qn_item (subclass_cpp sub))] else [])).
  { intros []; cbn; intuition discriminate. }
  destruct (superclass_methods sups apis sup) as [ms|]; [|injection H as <-; destruct (C _ I)].
  destruct (all_some _) as [[|f r]|]; [injection H as <-; destruct (C _ I)| |discriminate].
  injection H as <-. destruct I as [I|I]; [discriminate|destruct (C _ I)].
Qed.
(** What a subclass contributes. *)
Lemma impl_out policy sups apis a l tr id impl : generate_api policy sups apis a = Some l -> In (OImpl tr id impl) l ->
  exists sub sup ms, a = SSubclass sub sup /\ tr = supers_trait_name sup /\ id = qn_item sub /\
    superclass_methods sups apis sup = Some ms /\
    all_some (map impl_fn (filter (fun m => negb (sm_pure m)) ms)) = Some impl /\ impl <> [].
Proof.
  destruct a as [? ? ? ?|? ?|? ? d|sub sup|q abs n|?]; intros H I; try (injection H as <-; cbn in I; intuition discriminate).
  2:{ destruct (type_out _ _ _ _ _ _ _ H _ I) as (ms & fs & _ & _ & _ & [E|[E _]]); discriminate. }
  exists sub, sup. cbn in H. unfold generate_subclass in H.
  assert (C : forall b, ~ In (OImpl tr id impl) (if b : bool then [OPeerConstructor (qn_item sub) (qn_item (subclass_cpp sub))] else [])).
  { intros []; cbn; intuition discriminate. }
  destruct (superclass_methods sups apis sup) as [ms|]; [|injection H as <-; destruct (C _ I)].
  exists ms. destruct (all_some (map impl_fn _)) as [[|f r]|] eqn:A; [injection H as <-; destruct (C _ I)| |discriminate].
  injection H as <-. destruct I as [I|I]; [|destruct (C _ I)]. injection I as <- <- <-.
  repeat (split; [reflexivity|]). discriminate.
Qed.

(** * C74: the implementation of the [_supers] trait has the functions of the trait, no more, no fewer,
    with the same heads; every subclass of the class gets one. *)
Theorem c74_supers_implemented : forall policy sups apis out sub sup fns parent,
  generate_all policy sups apis = Some out ->
  In (OTrait (supers_trait_name sup) parent fns) out -> In (SSubclass sub sup) apis ->
  exists impl, In (OImpl (supers_trait_name sup) (qn_item sub) impl) out /\ map head impl = map head fns.
Proof.
  intros policy sups apis out sub sup fns parent G T S.
  apply (generate_all_in _ _ _ _ G) in T as (a & l & IA & GA & IT).
  destruct (not_type_out _ _ _ _ _ _ _ _ GA IT) as (q & abs & n & ->).
  destruct (type_out _ _ _ _ _ _ _ GA _ IT) as (ms & fs & M & A & V & [E|[E NE]]).
  { apply otrait_inj in E as (E & _ & _). destruct (supers_not_methods _ _ E). }
  apply otrait_inj in E as (E & -> & ->). apply supers_inj in E as <-.
  destruct (generate_all_some _ _ _ _ G _ S) as (l2 & G2).
  cbn in G2. rewrite M in G2. unfold generate_subclass in G2.
  destruct (all_some (map impl_fn _)) as [impl|] eqn:B; [|discriminate].
  pose proof (trait_impl _ _ _ A B) as EQ. fold (super_fns fs) in EQ. exists impl. split; [|exact EQ].
  apply (generate_all_in _ _ _ _ G). eexists _, _. split; [exact S|]. split; [cbn; rewrite M; unfold generate_subclass; rewrite B; exact G2|].
  destruct impl as [|f r]; [|injection G2 as <-; left; reflexivity].
  destruct (super_fns fs); [contradiction|discriminate].
Qed.
Print Assumptions c74_supers_implemented.

(** No implementation is without its trait, as long as the class itself is generated. *)
Theorem c74_impl_has_trait : forall policy sups apis out tr id impl,
  generate_all policy sups apis = Some out -> In (OImpl tr id impl) out ->
  exists sub sup, In (SSubclass sub sup) apis /\ tr = supers_trait_name sup /\ id = qn_item sub /\
    forall abs n, In (SType sup abs n) apis -> abs = false \/ n = 0 ->
      exists fns, In (OTrait tr None fns) out /\ map head impl = map head fns.
Proof.
  intros policy sups apis out tr id impl G I.
  apply (generate_all_in _ _ _ _ G) in I as (a & l & IA & GA & IT).
  destruct (impl_out _ _ _ _ _ _ _ _ GA IT) as (sub & sup & ms & -> & -> & -> & M & B & NE).
  exists sub, sup. split; [exact IA|]. split; [reflexivity|]. split; [reflexivity|]. intros abs n T V.
  destruct (type_has _ _ _ _ _ _ _ _ G T V M) as (fs & A & _ & K). pose proof (trait_impl _ _ _ A B) as EQ. fold (super_fns fs) in EQ.
  exists (super_fns fs). split; [|exact EQ]. apply K. intros E. rewrite E in EQ. destruct impl; [contradiction|discriminate].
Qed.
Print Assumptions c74_impl_has_trait.

(** A default body calls a function which the parent trait declares, with that function's own
    parameters in order; a function without a default body is one which C++ leaves pure. *)
Theorem c74_default_bodies : forall policy sups apis out sup parent fns f,
  generate_all policy sups apis = Some out -> In (OTrait (methods_trait_name sup) parent fns) out -> In f fns ->
  match g_body f with
  | Some (CSelf g, args) => exists sfns sf, parent = Some (supers_trait_name sup) /\ In (OTrait (supers_trait_name sup) None sfns) out /\
      In sf sfns /\ g_name sf = g /\ g_params sf = g_params f /\ g_ret sf = g_ret f /\ g_unsafe sf = g_unsafe f /\
      args = arg_names (g_params sf) /\ g = g_name f +++ "_super"
  | Some (CPeer _ _, _) => False
  | None => exists n m, In (STraitItem n m) apis /\ sm_receiver m = sup /\ sm_name m = g_name f /\ sm_pure m = true
  end.
Proof.
  intros policy sups apis out sup parent fns f G T F. pose proof T as T0.
  apply (generate_all_in _ _ _ _ G) in T as (a & l & IA & GA & IT).
  destruct (not_type_out _ _ _ _ _ _ _ _ GA IT) as (q & abs & n & ->).
  destruct (type_out _ _ _ _ _ _ _ GA _ IT) as (ms & fs & M & A & V & [E|[E _]]).
  2:{ apply otrait_inj in E as (E & _ & _). symmetry in E. destruct (supers_not_methods _ _ E). }
  apply otrait_inj in E as (E & -> & ->). apply methods_inj in E as <-.
  apply in_map_iff in F as (p & <- & IP). pose proof (proj1 (all_some_ok _ _ _) A) as A2.
  destruct (Forall2_in_r _ _ _ A2 _ IP) as (m & IM & TF).
  destruct (type_has _ _ _ _ _ _ _ _ G IA V M) as (fs' & A' & _ & K). rewrite A in A'. injection A' as <-.
  unfold trait_fns in TF. destruct (with_self (sm_mut m) (sm_params m)) as [ps|] eqn:W; [|discriminate].
  destruct (sm_pure m) eqn:P; injection TF as <-; cbn [g_body snd fst].
  - unfold superclass_methods in M. destruct (qmem _ _); [|discriminate]. injection M as <-.
    apply in_flat_map in IM as (x & IX & IM). destruct x as [| |? ? ? |? ?|? ? ? |?]; try contradiction.
    destruct (qn_eqb _ _) eqn:Q; [|contradiction]. destruct IM as [<-|[]]. apply qn_eqb_eq in Q. eauto 6.
  - assert (IS : In (GF (wrapper_token (sm_unsafe m)) (qn_item (super_fn_name [] (sm_name m))) ps (sm_ret m) None) (super_fns fs)).
    { unfold super_fns. apply in_flat_map. eexists. split; [exact IP|]. left. reflexivity. }
    assert (NE : super_fns fs <> []). { intros Z. rewrite Z in IS. contradiction. }
    eexists _, _. split; [destruct (super_fns fs); [contradiction|reflexivity]|]. split; [apply K; exact NE|]. split; [exact IS|].
    cbn. repeat (split; [reflexivity|]). split; [|reflexivity].
    unfold with_self in W. destruct (sm_params m) as [|x r]; [discriminate|]. injection W as <-. unfold args_from_sig. cbn.
    clear. induction r as [|y r IH]; [reflexivity|]. cbn. f_equal. exact IH.
Qed.
Print Assumptions c74_default_bodies.

(** * C74: names of the parameters. The arguments which an implementation passes to the C++ peer are
    its own parameters, in order. *)

(** [this] is written only in front. *)
Definition this_first (fn : func) : Prop := ~ In "this" (map fst (tl (f_inputs fn))).

Lemma virtual_receiver env fn ns pre ideal is_static self_ty recv sr s1 s2 k ctx rust q m :
  fn_kind_and_name env fn ns pre ideal is_static self_ty recv sr s1 = (s2, OOk (k, ctx, rust)) ->
  virtual_kind k = Some (q, m) -> recv = Some m.
Proof.
  unfold fn_kind_and_name. intros H V. apply bind_ok in H as (s3 & tr & HT & H). destruct tr as [d|].
  { apply ret_ok in H as [_ H]. subst d. unfold trait_creation_details in HT. destruct (f_trait fn) as [[to|q0|q0]|].
    - apply bind_ok in HT as (s4 & n & _ & HT). apply bind_ok in HT as (s5 & from & _ & HT). apply ret_ok in HT as [_ HT].
      injection HT as -> _ _. discriminate.
    - apply bind_ok in HT as (s4 & n & _ & HT). apply ret_ok in HT as [_ HT]. injection HT as -> _ _. discriminate.
    - apply bind_ok in HT as (s4 & n & _ & HT). apply ret_ok in HT as [_ HT]. injection HT as -> _ _. discriminate.
    - apply ret_ok in HT as [_ HT]. discriminate. }
  destruct self_ty as [t|].
  2:{ apply bind_ok in H as (s4 & n & _ & H). apply ret_ok in H as [_ H]. injection H as -> _ _. discriminate. }
  assert (NORM : forall (b : bool) sA, (do (mk, n0) <-
                match constructor_with_suffix ideal (match qget t (fe_nested env) with Some s => s | None => qn_item t end) with
                | Some s => ret (MConstructor b, "new" +++ s)
                | None =>
                    if is_static then ret (MStatic, ideal)
                    else do r <- of_option recv;
                         ret (match f_virtual fn with
                              | None => MNormal
                              | Some VtVirtual => MVirtual r
                              | Some VtPure => MPureVirtual r
                              end, ideal)
                end;
              do n <- match pre with Some p => ret p | None => get_overload_name ns (Some (qn_item t)) n0 end;
              ret (FMethod mk t, error_context_for_method env t n, n)) sA = (s2, OOk (k, ctx, rust)) -> recv = Some m).
  { intros b sA Q. apply bind_ok in Q as (s4 & [mk n1] & Q1 & Q). apply bind_ok in Q as (s5 & n2 & _ & Q).
    apply ret_ok in Q as [_ Q]. injection Q as -> _ _. cbn in V.
    destruct (constructor_with_suffix _ _); [apply ret_ok in Q1 as [_ Q1]; injection Q1 as -> _; discriminate|].
    destruct is_static; [apply ret_ok in Q1 as [_ Q1]; injection Q1 as -> _; discriminate|].
    apply bind_ok in Q1 as (s6 & r & Q2 & Q1). apply of_option_ok in Q2 as [-> _]. apply ret_ok in Q1 as [_ Q1]. injection Q1 as -> _.
    destruct (f_virtual fn) as [[]|]; try discriminate; injection V as _ <-; reflexivity. }
  destruct (f_special fn) as [[]|].
  - eapply NORM; exact H.
  - apply bind_ok in H as (s4 & n & _ & H). apply ret_ok in H as [_ H]. injection H as -> _ _. destruct sr; discriminate.
  - apply bind_ok in H as (s4 & n & _ & H). apply ret_ok in H as [_ H]. injection H as -> _ _. discriminate.
  - apply bind_ok in H as (s4 & n & _ & H). apply ret_ok in H as [_ H]. injection H as -> _ _. discriminate.
  - eapply NORM; exact H.
  - eapply NORM; exact H.
Qed.

(** The parameters of a virtual method as the subclass code uses them. *)
Lemma virtual_params env name fn pre st st' fa nm q m :
  analyze_foreign_fn env name fn SimpleForSubclasses pre st = (st', OOk (fa, nm)) ->
  virtual_kind (fa_kind fa) = Some (q, m) -> this_first fn ->
  exists (p : (string * ty) * arg) (ps : list ((string * ty) * arg)), fa_details fa = snd p :: map snd ps /\ a_self (snd p) <> None /\
    (forall p', In p' ps -> a_self (snd p') = None) /\ (forall p', In p' ps -> fst (fst p') = a_name (snd p')) /\
    map fst (tl (fa_params fa)) = map (fun p' => a_name (snd p')) ps /\ fa_params fa <> [].
Proof.
  intros H V TF. apply analyze_ok in H as (_ & ps0 & bads & ig0 & ps1 & r & ig2 & b0 & kw & PC).
  destruct (pc_receiver _ _ _ _ _ _ _ _ _ _ _ _ _ _ PC) as (s1 & s2 & FR).
  assert (E1 : ps1 = ps0).
  { unfold fix_receiver in FR. destruct (fa_kind fa) as [|[]|]; try discriminate; apply ret_ok in FR as [_ FR]; injection FR; auto. }
  subst ps1. clear s1 s2 FR.
  assert (E2 : r_placement r = None).
  { destruct (pc_return _ _ _ _ _ _ _ _ _ _ _ _ _ _ PC) as (s1 & s2 & [[C _]|(e & _ & -> & _)]); [|reflexivity].
    apply convert_return_type_ok in C. destruct (f_output fn) as [t0|]; [|subst r; reflexivity].
    destruct C as (an & s3 & _ & [(_ & conv & -> & _)|(l & i & ar & q0 & _ & _ & _ & [(_ & D & _)|(_ & ->)])]); try reflexivity. discriminate. }
  destruct (pc_kind _ _ _ _ _ _ _ _ _ _ _ _ _ _ PC) as (s1 & s2 & ideal & self_ty & receiver & ctx & _ & RC & FK).
  apply (virtual_receiver _ _ _ _ _ _ _ _ _ _ _ _ _ _ _ _ FK) in V. rewrite V in RC. clear FK V.
  destruct (pc_params _ _ _ _ _ _ _ _ _ _ _ _ _ _ PC) as (s3 & s4 & CP).
  pose proof (pc_details _ _ _ _ _ _ _ _ _ _ _ _ _ _ PC) as D. pose proof (pc_fa_params _ _ _ _ _ _ _ _ _ _ _ _ _ _ PC) as P.
  rewrite E2, app_nil_r in D, P. clear PC. unfold this_first in TF.
  destruct (f_inputs fn) as [|[n t] inputs]; [apply ret_ok in CP as [_ CP]; injection CP as -> ->; discriminate|].
  cbn [tl] in TF. cbn [convert_params] in CP. apply bind_ok in CP as (s5 & rp & C1 & CP).
  apply bind_ok in CP as (s6 & [ps bads'] & C2 & CP). apply ret_ok in CP as [_ CP].
  apply convert_params_ok in C2 as (C2 & _ & _).
  assert (NS : forall p', In p' ps -> a_self (snd p') = None /\ fst (fst p') = a_name (snd p')).
  { intros p' I. destruct (C2 _ I) as (n' & t' & s7 & s8 & IN & C). apply convert_fn_arg_ok in C as (an & t'' & SP). split.
    - destruct (a_self (snd p')) eqn:A; [|reflexivity]. exfalso. apply TF. destruct (proj1 (as_self _ _ _ _ _ _ _ _ _ _ _ _ SP)); [congruence|].
      apply (in_map fst) in IN. exact IN.
    - exact (as_name _ _ _ _ _ _ _ _ _ _ _ _ SP). }
  assert (NF : flat_map (fun p => match a_self (snd p) with Some s => [s] | None => [] end) ps = []).
  { clear - NS. induction ps as [|p' ps IH]; [reflexivity|]. cbn. rewrite (proj1 (NS p' (or_introl eq_refl))). apply IH. intros x I. apply NS. right. exact I. }
  destruct rp as [p|e]; injection CP as -> ->.
  2:{ rewrite NF in RC. discriminate. }
  exists p, ps. split; [exact D|]. split.
  { intros A. cbn in RC. rewrite A, NF in RC. discriminate. }
  split; [intros p' I; apply NS; exact I|]. split; [intros p' I; apply NS; exact I|].
  rewrite D in P. destruct (is_some (fa_wrapper fa)); rewrite P; (split; [|discriminate]); cbn [map tl].
  - rewrite !map_map. apply map_ext_in. intros p' I. cbn. rewrite (proj1 (NS p' I)). reflexivity.
  - rewrite map_map. apply map_ext_in. intros p' I. apply NS. exact I.
Qed.

(** When a function is a virtual method. *)
Lemma virtual_shape env fn ns pre ideal is_static self_ty recv sr s1 s2 k ctx rust q m :
  fn_kind_and_name env fn ns pre ideal is_static self_ty recv sr s1 = (s2, OOk (k, ctx, rust)) ->
  virtual_kind k = Some (q, m) ->
  f_trait fn = None /\ self_ty = Some q /\ (forall s, f_special fn = Some s -> s = SmDefault \/ s = SmAssign) /\
  constructor_with_suffix ideal (match qget q (fe_nested env) with Some s => s | None => qn_item q end) = None /\
  is_static = false /\ exists v, f_virtual fn = Some v /\
    k = FMethod (match v with VtVirtual => MVirtual m | VtPure => MPureVirtual m end) q.
Proof.
  unfold fn_kind_and_name. intros H V. apply bind_ok in H as (s3 & tr & HT & H). destruct tr as [d|].
  { apply ret_ok in H as [_ H]. subst d. unfold trait_creation_details in HT. destruct (f_trait fn) as [[to|q0|q0]|].
    - apply bind_ok in HT as (s4 & n & _ & HT). apply bind_ok in HT as (s5 & from & _ & HT). apply ret_ok in HT as [_ HT].
      injection HT as -> _ _. discriminate.
    - apply bind_ok in HT as (s4 & n & _ & HT). apply ret_ok in HT as [_ HT]. injection HT as -> _ _. discriminate.
    - apply bind_ok in HT as (s4 & n & _ & HT). apply ret_ok in HT as [_ HT]. injection HT as -> _ _. discriminate.
    - apply ret_ok in HT as [_ HT]. discriminate. }
  assert (FT : f_trait fn = None).
  { unfold trait_creation_details in HT. destruct (f_trait fn) as [[to|q0|q0]|]; [exfalso| exfalso| exfalso|reflexivity].
    - apply bind_ok in HT as (s4 & n & _ & HT). apply bind_ok in HT as (s5 & from & _ & HT). apply ret_ok in HT as [_ HT]. discriminate.
    - apply bind_ok in HT as (s4 & n & _ & HT). apply ret_ok in HT as [_ HT]. discriminate.
    - apply bind_ok in HT as (s4 & n & _ & HT). apply ret_ok in HT as [_ HT]. discriminate. }
  destruct self_ty as [t|].
  2:{ apply bind_ok in H as (s4 & n & _ & H). apply ret_ok in H as [_ H]. injection H as -> _ _. discriminate. }
  assert (NORM : forall (b : bool) sA, (forall s, f_special fn = Some s -> s = SmDefault \/ s = SmAssign) -> (do (mk, n0) <-
                match constructor_with_suffix ideal (match qget t (fe_nested env) with Some s => s | None => qn_item t end) with
                | Some s => ret (MConstructor b, "new" +++ s)
                | None =>
                    if is_static then ret (MStatic, ideal)
                    else do r <- of_option recv;
                         ret (match f_virtual fn with
                              | None => MNormal
                              | Some VtVirtual => MVirtual r
                              | Some VtPure => MPureVirtual r
                              end, ideal)
                end;
              do n <- match pre with Some p => ret p | None => get_overload_name ns (Some (qn_item t)) n0 end;
              ret (FMethod mk t, error_context_for_method env t n, n)) sA = (s2, OOk (k, ctx, rust)) ->
    f_trait fn = None /\ Some t = Some q /\ (forall s, f_special fn = Some s -> s = SmDefault \/ s = SmAssign) /\
    constructor_with_suffix ideal (match qget q (fe_nested env) with Some s => s | None => qn_item q end) = None /\
    is_static = false /\ exists v, f_virtual fn = Some v /\
      k = FMethod (match v with VtVirtual => MVirtual m | VtPure => MPureVirtual m end) q).
  { intros b sA SP Q. apply bind_ok in Q as (s4 & [mk n1] & Q1 & Q). apply bind_ok in Q as (s5 & n2 & _ & Q).
    apply ret_ok in Q as [_ Q]. injection Q as -> _ _. cbn in V.
    destruct (constructor_with_suffix _ _) eqn:CS; [apply ret_ok in Q1 as [_ Q1]; injection Q1 as -> _; discriminate|].
    destruct is_static; [apply ret_ok in Q1 as [_ Q1]; injection Q1 as -> _; discriminate|].
    apply bind_ok in Q1 as (s6 & r & Q2 & Q1). apply of_option_ok in Q2 as [-> _]. apply ret_ok in Q1 as [_ Q1]. injection Q1 as -> _.
    split; [exact FT|].
    destruct (f_virtual fn) as [v|]; [|discriminate]. assert (Z : t = q /\ r = m) by (destruct v; injection V; auto). destruct Z as [-> ->].
    split; [reflexivity|]. split; [exact SP|]. split; [exact CS|]. split; [reflexivity|]. exists v. split; [reflexivity|]. destruct v; reflexivity. }
  destruct (f_special fn) as [[]|] eqn:SP.
  - refine (NORM _ _ _ H). intros s [= <-]. auto.
  - apply bind_ok in H as (s4 & n & _ & H). apply ret_ok in H as [_ H]. injection H as -> _ _. destruct sr; discriminate.
  - apply bind_ok in H as (s4 & n & _ & H). apply ret_ok in H as [_ H]. injection H as -> _ _. discriminate.
  - apply bind_ok in H as (s4 & n & _ & H). apply ret_ok in H as [_ H]. injection H as -> _ _. discriminate.
  - refine (NORM _ _ _ H). intros s [= <-]. auto.
  - refine (NORM _ _ _ H). discriminate.
Qed.
Lemma virtual_again env fn ns p ideal q m v sr s1 s2 k ctx rust :
  f_trait fn = None -> (forall s, f_special fn = Some s -> s = SmDefault \/ s = SmAssign) ->
  constructor_with_suffix ideal (match qget q (fe_nested env) with Some s => s | None => qn_item q end) = None ->
  f_virtual fn = Some v ->
  fn_kind_and_name env fn ns (Some p) ideal false (Some q) (Some m) sr s1 = (s2, OOk (k, ctx, rust)) ->
  k = FMethod (match v with VtVirtual => MVirtual m | VtPure => MPureVirtual m end) q /\ rust = p.
Proof.
  intros FT SP CS FV. unfold fn_kind_and_name. rewrite FT. cbn [trait_creation_details].
  assert (Z : match f_special fn with
     | Some SmDefault => True | Some SmAssign => True | None => True | _ => False end).
  { destruct (f_special fn) as [x|]; [|exact I]. destruct (SP x eq_refl) as [-> | ->]; exact I. }
  intros H. cbn in H. destruct (f_special fn) as [[]|]; try contradiction; rewrite CS, FV in H;
    unfold bind, ret, of_option in H; cbn in H; injection H as _ <- _ <-; destruct v; auto.
Qed.

(** The parts of an analysis which decide about its kind. *)
Lemma analyze_head env name fn soph pre st st' fa nm :
  analyze_foreign_fn env name fn soph pre st = (st', OOk (fa, nm)) ->
  exists s1 s2 ps0 bads s3 s4 ideal s5 s6 ctx,
    convert_params env fn (qn_ns (an_name name)) soph (f_inputs fn) s1 = (s2, OOk (ps0, bads)) /\
    ideal_rust_name env (an_cpp name) (f_ident fn) s3 = (s4, OOk ideal) /\
    let self := hd_error (flat_map (fun p => match a_self (snd p) with Some s => [s] | None => [] end) ps0) in
    fn_kind_and_name env fn (qn_ns (an_name name)) pre ideal
      (match self with Some _ => false | None => match f_self_ty fn with Some _ => true | None => false end end)
      (match self with Some (q, _) => Some q | None => f_self_ty fn end)
      (match self with Some (_, m) => Some m | None => None end)
      (match nth_error ps0 1 with
       | Some (_, a) => match pol_type (a_conv a) with TRef _ _ _ => true | _ => false end
       | None => false
       end) s5 = (s6, OOk (fa_kind fa, ctx, fa_rust fa)).
Proof.
  unfold analyze_foreign_fn. intros H.
  apply bind_ok in H as (s1 & u1 & _ & H).
  apply bind_ok in H as (s2 & [ps0 bads] & HP & H).
  apply bind_ok in H as (s3 & ideal & HI & H).
  apply bind_ok in H as (s4 & [[kind ctx] rust] & HK & H).
  apply bind_ok in H as (s5 & [ig0 ps1] & HR & H).
  apply bind_ok in H as (s6 & bridge0 & _ & H).
  apply bind_ok in H as (s7 & rr & HT & H).
  destruct (match rr with Ok r => (check_unsupported env fn kind bads ig0, r) | Err e => (Some e, ret_default) end) as [ig2 r] eqn:RR.
  apply bind_ok in H as (s8 & keyword & HW & H).
  destruct (cpp_wrapper_needed _ _ _ _ _ _ _ _) eqn:NEED;
    [destruct (wrapper_payload fn (qn_ns (an_name name)) kind match an_cpp name with Some c => c | None => rust end) as [payload ck]|];
    apply bind_ok in H as (s9 & v & HV & H); apply ret_ok in H as [-> H]; injection H as -> ->; cbn [fa_kind fa_rust];
    exists s1, s2, ps0, bads, s2, s3, ideal, s3, s4, ctx; (split; [exact HP|]); (split; [exact HI|]); exact HK.
Qed.
Lemma ideal_same env c i s1 s2 s3 s4 a b : ideal_rust_name env c i s1 = (s2, OOk a) -> ideal_rust_name env c i s3 = (s4, OOk b) -> a = b.
Proof.
  unfold ideal_rust_name. destruct c as [c|]; [|intros [= <- <-] [= <- <-]; reflexivity].
  destruct (ends_with "_" i); [intros [= <- <-] [= <- <-]; reflexivity|]. unfold rust_keyword, bind, panic, ret.
  destruct (tc_lexes (fe_tc env) c); [|discriminate]. intros [= <- <-] [= <- <-]. reflexivity.
Qed.

(** Whether the receiver's type can be converted does not depend on what was converted before. *)
Definition steady_receiver (env : fn_env) (ns : list string) (fn : func) : Prop :=
  forall t rest soph1 s1 s1' p soph2 s2 s2' e, f_inputs fn = ("this", t) :: rest ->
    convert_fn_arg env ns (f_this fn) true false None soph1 false "this" t s1 = (s1', OOk p) ->
    convert_fn_arg env ns (f_this fn) true false None soph2 false "this" t s2 <> (s2', OErr e).

Lemma this_same vt t s1 s1' s2 s2' a b : this_details vt t s1 = (s1', OOk a) -> this_details vt t s2 = (s2', OOk b) -> a = b.
Proof.
  unfold this_details. destruct t as [| |m [lead id args| | | | |] | | |]; try discriminate.
  destruct (match unwrap_marker opaque_marker lead id args with Some (TPath l i _) => (l, i) | _ => (lead, id) end) as [l i].
  destruct vt as [v|]; [unfold ret; congruence|]. unfold bind, of_option. destruct (path_name l i); unfold ret; cbn; [congruence|discriminate].
Qed.
Lemma this_arg_self env ns vt t soph s s' p : convert_fn_arg env ns vt true false None soph false "this" t s = (s', OOk p) ->
  exists s1 s1' t1, this_details vt t s1 = (s1', OOk (t1, match a_self (snd p) with Some x => x | None => (QN [] "", MConst) end)) /\ a_self (snd p) <> None.
Proof.
  unfold convert_fn_arg. intros H. apply bind_ok in H as (st1 & [[n' t'] self] & H1 & H).
  apply bind_ok in H as (st2 & an & H2 & H). apply bind_ok in H as (st3 & conv & H3 & H). apply ret_ok in H as [_ ->].
  cbn [snd a_self]. change (String.eqb "this" "this") with true in H1. cbn iota in H1.
  apply bind_ok in H1 as (st4 & [t1 sf] & H4 & H1). apply ret_ok in H1 as [_ H1]. injection H1 as -> -> ->.
  exists s, st4, t1. split; [exact H4|discriminate].
Qed.
(** The receiver comes from the first input. *)
Lemma params_self env fn ns soph s s' ps bads : this_first fn ->
  convert_params env fn ns soph (f_inputs fn) s = (s', OOk (ps, bads)) ->
  (exists t rest p r s1 s1', f_inputs fn = ("this", t) :: rest /\ ps = p :: r /\
     convert_fn_arg env ns (f_this fn) true false None soph false "this" t s1 = (s1', OOk p) /\
     flat_map (fun p => match a_self (snd p) with Some s => [s] | None => [] end) ps =
       match a_self (snd p) with Some x => [x] | None => [] end) \/
  (flat_map (fun p => match a_self (snd p) with Some s => [s] | None => [] end) ps = [] /\
   forall t rest, f_inputs fn = ("this", t) :: rest -> exists s1 s1' e,
     convert_fn_arg env ns (f_this fn) true false None soph false "this" t s1 = (s1', OErr e)).
Proof.
  intros TF CP. unfold this_first in TF. destruct (f_inputs fn) as [|[n t] inputs].
  { apply ret_ok in CP as [_ CP]. injection CP as -> ->. right. split; [reflexivity|discriminate]. }
  cbn [tl] in TF. cbn [convert_params] in CP. apply bind_ok in CP as (s5 & rp & C1 & CP).
  apply bind_ok in CP as (s6 & [r bads'] & C2 & CP). apply ret_ok in CP as [_ CP].
  apply convert_params_ok in C2 as (C2 & _ & _).
  assert (NF : flat_map (fun p => match a_self (snd p) with Some s => [s] | None => [] end) r = []).
  { assert (NS : forall p', In p' r -> a_self (snd p') = None).
    { intros p' I. destruct (C2 _ I) as (n' & t' & s7 & s8 & IN & C). apply convert_fn_arg_ok in C as (an & t'' & SP).
      destruct (a_self (snd p')) eqn:A; [|reflexivity]. exfalso. apply TF. destruct (proj1 (as_self _ _ _ _ _ _ _ _ _ _ _ _ SP)); [congruence|].
      apply (in_map fst) in IN. exact IN. }
    clear - NS. induction r as [|p' r IH]; [reflexivity|]. cbn. rewrite (NS p' (or_introl eq_refl)). apply IH. intros x I. apply NS. right. exact I. }
  apply catch_ok in C1 as [(p & C1 & ->)|(e & C1 & ->)]; injection CP as -> ->.
  - pose proof C1 as C0. apply convert_fn_arg_ok in C0 as (an & t'' & SP). destruct (string_dec n "this") as [->|NE].
    + left. exists t, inputs, p, r, s, s5. cbn. rewrite NF, app_nil_r. auto.
    + right. split; [|intros t0 rest [= E _ _]; contradiction]. cbn. rewrite NF.
      destruct (a_self (snd p)) eqn:A; [|reflexivity]. exfalso. apply NE. apply (proj1 (as_self _ _ _ _ _ _ _ _ _ _ _ _ SP)). congruence.
  - right. split; [exact NF|]. intros t0 rest [= -> <- _]. eauto.
Qed.

(** The simpler analysis of a virtual method agrees with the first about kind and name. *)
Lemma simpler_same env name fn soph st st' fa nm st2 st2' si nm2 q m :
  analyze_foreign_fn env name fn soph None st = (st', OOk (fa, nm)) -> virtual_kind (fa_kind fa) = Some (q, m) ->
  analyze_foreign_fn env nm fn SimpleForSubclasses (Some (fa_rust fa)) st2 = (st2', OOk (si, nm2)) ->
  this_first fn -> steady_receiver env (qn_ns (an_name name)) fn ->
  fa_kind si = fa_kind fa /\ fa_rust si = fa_rust fa.
Proof.
  intros H1 V H2 TF SR. pose proof (proj1 (analyze_ok _ _ _ _ _ _ _ _ _ H1)) as NM.
  apply analyze_head in H1 as (s1 & s2 & ps & bads & s3 & s4 & ideal & s5 & s6 & ctx & P1 & I1 & K1).
  apply analyze_head in H2 as (r1 & r2 & ps' & bads' & r3 & r4 & ideal' & r5 & r6 & ctx' & P2 & I2 & K2).
  rewrite NM in P2, I2, K2. cbn [an_name an_cpp qn_ns] in P2, I2, K2. rewrite (ideal_same _ _ _ _ _ _ _ _ _ I2 I1) in K2. clear I1 I2.
  pose proof (virtual_receiver _ _ _ _ _ _ _ _ _ _ _ _ _ _ _ _ K1 V) as RC.
  destruct (virtual_shape _ _ _ _ _ _ _ _ _ _ _ _ _ _ _ _ K1 V) as (FT & ST & SP & CS & IS & v & FV & KE).
  destruct (params_self _ _ _ _ _ _ _ _ TF P1) as [(t & rest & p & r & u1 & u2 & FI & -> & C1 & F1)|[F1 _]]; [|rewrite F1 in RC; discriminate].
  destruct (params_self _ _ _ _ _ _ _ _ TF P2) as [(t' & rest' & p' & r' & w1 & w2 & FI' & -> & C2 & F2)|[F2 N2]].
  2:{ destruct (N2 _ _ FI) as (w1 & w2 & e & N). destruct (SR _ _ _ _ _ _ _ _ _ _ FI C1 N). }
  rewrite FI in FI'. injection FI' as <- <-.
  apply this_arg_self in C1 as (x1 & x2 & t1 & T1 & NS1). apply this_arg_self in C2 as (y1 & y2 & t2 & T2 & NS2).
  pose proof (this_same _ _ _ _ _ _ _ _ T1 T2) as E. rewrite F1 in RC, ST, IS. rewrite F2 in K2.
  destruct (a_self (snd p)) as [[q1 m1]|]; [|congruence]. destruct (a_self (snd p')) as [[q2 m2]|]; [|congruence].
  cbn in RC, ST, K2. injection E as _ <- <-. injection RC as ->. injection ST as ->.
  destruct (virtual_again _ _ _ _ _ _ _ _ _ _ _ _ _ _ FT SP CS FV K2) as [-> ->]. rewrite KE. auto.
Qed.

(** * C74: calls from C++ *)

(** The name of the trait item of a virtual method. *)
Definition item_names (l : list sapi) : list qname :=
  flat_map (fun a => match a with
    | SFunction _ _ fa PvOther => match virtual_kind (fa_kind fa) with Some (q, _) => [trait_api_name q (fa_rust fa)] | None => [] end
    | _ => []
    end) l.

(** What is made for one virtual method. *)
Record made (env : fn_env) (subs : list qname) (fn : func) (nm : api_name) (fa si : fn_analysis) (sup : qname) (m : mutability)
    (ex : list qname) (l : list sapi) (ex' : list qname) : Prop := {
  md_item : forall n mm, In (STraitItem n mm) l ->
    STraitItem n mm = create_subclass_trait_item (fe_policy env) (trait_api_name sup (fa_rust fa)) si m sup (is_pure (fa_kind si));
  md_fn : forall n sub d, In (SSubclassFn n sub d) l -> In sub subs /\ exists deps, In (trait_api_name sup (fa_rust fa)) deps /\
    SSubclassFn n sub d = create_subclass_function (fe_policy env) sub si nm m sup deps /\
    (is_pure (fa_kind si) = false -> exists n' fn' fa', In (SFunction n' fn' fa' PvOther) l /\ In (an_name n') deps /\
       fn' = create_subclass_fn_wrapper sub (super_fn_name [] (fa_rust fa)) fn /\
       exists s s', analyze_foreign_fn env (AN (super_fn_name [] (fa_bridge fa)) None) fn' SimpleForSubclasses None s = (s', OOk (fa', n')));
  md_all : forall sub, In sub subs -> exists n d, In (SSubclassFn n sub d) l;
  md_in : forall x, In x ex' -> In x ex \/ x = trait_api_name sup (fa_rust fa);
  md_incl : forall x, In x ex -> In x ex';
  md_new : subs <> [] -> ~ In (trait_api_name sup (fa_rust fa)) ex ->
    In (create_subclass_trait_item (fe_policy env) (trait_api_name sup (fa_rust fa)) si m sup (is_pure (fa_kind si))) l
}.

Lemma qmem_false x l : qmem x l = false <-> ~ In x l.
Proof.
  rewrite <- not_true_iff_false. unfold qmem. rewrite existsb_exists. split; intros H I; apply H.
  - exists x. split; [exact I|apply qn_eqb_refl].
  - destruct I as (y & I & E). apply qn_eqb_eq in E as <-. exact I.
Qed.
Lemma qmem_true x l : qmem x l = true <-> In x l.
Proof.
  unfold qmem. rewrite existsb_exists. split.
  - intros (y & I & E). apply qn_eqb_eq in E as <-. exact I.
  - intros I. exists x. split; [exact I|apply qn_eqb_refl].
Qed.

Lemma items_made env fn nm sup m fa si sub ex st st' l ex' :
  subclass_items env fn nm sup m fa si sub ex st = (st', OOk (l, ex')) -> made env [sub] fn nm fa si sup m ex l ex'.
Proof.
  unfold subclass_items. intros H. apply bind_ok in H as (s1 & [supers deps] & H1 & H). apply ret_ok in H as [_ H].
  set (trait := trait_api_name sup (fa_rust fa)) in *.
  assert (SUP : (forall a, In a supers -> exists n f x, a = SFunction n f x PvOther) /\ In trait deps /\
    (is_pure (fa_kind si) = false -> exists n' fn' fa', In (SFunction n' fn' fa' PvOther) supers /\ In (an_name n') deps /\
       fn' = create_subclass_fn_wrapper sub (super_fn_name [] (fa_rust fa)) fn /\
       exists s s', analyze_foreign_fn env (AN (super_fn_name [] (fa_bridge fa)) None) fn' SimpleForSubclasses None s = (s', OOk (fa', n')))).
  { destruct (is_pure (fa_kind si)).
    - apply ret_ok in H1 as [_ H1]. injection H1 as -> ->. split; [intros a []|]. split; [left; reflexivity|discriminate].
    - apply bind_ok in H1 as (s2 & [a n] & H2 & H1). apply ret_ok in H1 as [_ H1]. injection H1 as -> ->.
      unfold analyze_and_add in H2. apply bind_ok in H2 as (s3 & [fa' n'] & H3 & H2). apply ret_ok in H2 as [_ H2]. injection H2 as -> ->.
      split; [intros x [<-|[]]; eauto|]. split; [left; reflexivity|]. intros _. eexists n', _, fa'. split; [left; reflexivity|].
      split; [right; left; reflexivity|]. split; [reflexivity|]. eauto. }
  destruct SUP as (SF & DP & SU). clear H1.
  assert (L : forall a, In a l -> In a supers \/ a = create_subclass_function (fe_policy env) sub si nm m sup deps \/
            (a = create_subclass_trait_item (fe_policy env) trait si m sup (is_pure (fa_kind si)))).
  { destruct (qmem trait ex); injection H as -> ->; intros a I; apply in_app_or in I as [I|I]; auto.
    - destruct I as [<-|[]]; auto.
    - destruct I as [<-|[<-|[]]]; auto. }
  assert (L2 : In (create_subclass_function (fe_policy env) sub si nm m sup deps) l /\ forall a, In a supers -> In a l).
  { destruct (qmem trait ex); injection H as -> ->; (split; [apply in_or_app; right; left; reflexivity|intros a I; apply in_or_app; auto]). }
  destruct L2 as [L2 L3]. constructor; fold trait.
  - intros n mm I. destruct (L _ I) as [I1|[E|E]]; [destruct (SF _ I1) as (? & ? & ? & ?); discriminate|discriminate|exact E].
  - intros n sub0 d I. destruct (L _ I) as [I1|[E|E]]; [destruct (SF _ I1) as (? & ? & ? & ?); discriminate| |discriminate].
    assert (sub0 = sub) as -> by (unfold create_subclass_function in E; congruence).
    split; [left; reflexivity|]. exists deps. split; [exact DP|]. split; [exact E|]. intros P.
    destruct (SU P) as (n' & fn' & fa' & I1 & R). exists n', fn', fa'. split; [apply L3; exact I1|exact R].
  - intros sub0 [<-|[]]. eexists _, _. exact L2.
  - destruct (qmem trait ex); injection H as -> ->; intros x I; [auto|]. destruct I as [<-|I]; auto.
  - destruct (qmem trait ex); injection H as -> ->; intros x I; [exact I|right; exact I].
  - intros _ N. apply qmem_false in N. rewrite N in H. injection H as -> ->. apply in_or_app. right. right. left. reflexivity.
Qed.

Lemma loop_made env fn nm sup m fa si : forall subs ex st st' l ex',
  subclass_loop env fn nm sup m fa si subs ex st = (st', OOk (l, ex')) -> made env subs fn nm fa si sup m ex l ex'.
Proof.
  induction subs as [|sub subs IH]; intros ex st st' l ex' H; cbn [subclass_loop] in H.
  - apply ret_ok in H as [_ H]. injection H as -> ->. constructor; try contradiction; auto; intros; contradiction.
  - apply bind_ok in H as (s1 & [l1 ex1] & H1 & H). apply bind_ok in H as (s2 & [l2 ex2] & H2 & H).
    apply ret_ok in H as [_ H]. injection H as -> ->. apply items_made in H1. apply IH in H2. clear IH.
    constructor.
    + intros n mm I. apply in_app_or in I as [I|I]; [exact (md_item _ _ _ _ _ _ _ _ _ _ _ H1 _ _ I)|exact (md_item _ _ _ _ _ _ _ _ _ _ _ H2 _ _ I)].
    + intros n sub0 d I. apply in_app_or in I as [I|I].
      * destruct (md_fn _ _ _ _ _ _ _ _ _ _ _ H1 _ _ _ I) as ([<-|[]] & deps & D & E & P). split; [left; reflexivity|].
        exists deps. split; [exact D|]. split; [exact E|]. intros Q. destruct (P Q) as (n' & fn' & fa' & I' & R).
        exists n', fn', fa'. split; [apply in_or_app; left; exact I'|exact R].
      * destruct (md_fn _ _ _ _ _ _ _ _ _ _ _ H2 _ _ _ I) as (IN & deps & D & E & P). split; [right; exact IN|].
        exists deps. split; [exact D|]. split; [exact E|]. intros Q. destruct (P Q) as (n' & fn' & fa' & I' & R).
        exists n', fn', fa'. split; [apply in_or_app; right; exact I'|exact R].
    + intros sub0 [<-|I].
      * destruct (md_all _ _ _ _ _ _ _ _ _ _ _ H1 sub (or_introl eq_refl)) as (n & d & J). exists n, d. apply in_or_app. auto.
      * destruct (md_all _ _ _ _ _ _ _ _ _ _ _ H2 sub0 I) as (n & d & J). exists n, d. apply in_or_app. auto.
    + intros x I. apply (md_in _ _ _ _ _ _ _ _ _ _ _ H2) in I as [I|I]; [|auto]. exact (md_in _ _ _ _ _ _ _ _ _ _ _ H1 _ I).
    + intros x I. apply (md_incl _ _ _ _ _ _ _ _ _ _ _ H2). exact (md_incl _ _ _ _ _ _ _ _ _ _ _ H1 _ I).
    + intros _ N. apply in_or_app. left. apply (md_new _ _ _ _ _ _ _ _ _ _ _ H1); [discriminate|exact N].
Qed.

(** Where an item of the result of the analysis comes from. *)
Lemma run_made env apis : forall fns ex st st' l,
  analyze_functions env apis fns ex st = (st', OOk l) ->
  NoDup (item_names l) -> (forall x, In x ex -> ~ In x (item_names l)) ->
  (forall n mm, In (STraitItem n mm) l -> exists name fn fa si nm nm2 sup m s1 s2 s3 s4, In (name, fn) fns /\
     analyze_foreign_fn env name fn Regular None s1 = (s2, OOk (fa, nm)) /\ virtual_kind (fa_kind fa) = Some (sup, m) /\
     analyze_foreign_fn env nm fn SimpleForSubclasses (Some (fa_rust fa)) s3 = (s4, OOk (si, nm2)) /\
     STraitItem n mm = create_subclass_trait_item (fe_policy env) (trait_api_name sup (fa_rust fa)) si m sup (is_pure (fa_kind si))) /\
  (forall n sub d, In (SSubclassFn n sub d) l -> exists name fn fa si nm nm2 sup m s1 s2 s3 s4 deps, In (name, fn) fns /\
     analyze_foreign_fn env name fn Regular None s1 = (s2, OOk (fa, nm)) /\ virtual_kind (fa_kind fa) = Some (sup, m) /\
     analyze_foreign_fn env nm fn SimpleForSubclasses (Some (fa_rust fa)) s3 = (s4, OOk (si, nm2)) /\
     In sub (subclasses_of apis sup) /\
     SSubclassFn n sub d = create_subclass_function (fe_policy env) sub si nm m sup deps /\ In (trait_api_name sup (fa_rust fa)) deps /\
     In (create_subclass_trait_item (fe_policy env) (trait_api_name sup (fa_rust fa)) si m sup (is_pure (fa_kind si))) l /\
     (is_pure (fa_kind si) = false -> exists n' fn' fa', In (SFunction n' fn' fa' PvOther) l /\ In (an_name n') deps /\
       fn' = create_subclass_fn_wrapper sub (super_fn_name [] (fa_rust fa)) fn /\
       exists s s', analyze_foreign_fn env (AN (super_fn_name [] (fa_bridge fa)) None) fn' SimpleForSubclasses None s = (s', OOk (fa', n')))).
Proof.
  induction fns as [|[name fn] fns IH]; intros ex st st' l H ND EX; cbn [analyze_functions] in H.
  { apply ret_ok in H as [_ ->]. split; intros; contradiction. }
  apply bind_ok in H as (s1 & [l1 ex1] & H1 & H). apply bind_ok in H as (s2 & r & H2 & H). apply ret_ok in H as [_ ->].
  unfold item_names in ND, EX. rewrite flat_map_app in ND, EX. fold (item_names l1) in ND, EX. fold (item_names r) in ND, EX.
  apply NoDup_app_inv in ND as (ND1 & ND2 & ND3).
  unfold analyze_foreign_fn_and_subclasses in H1. apply bind_ok in H1 as (s3 & [fa nm] & A1 & H1).
  assert (EX2 : forall x, In x ex1 -> ~ In x (item_names r)).
  { destruct (virtual_kind (fa_kind fa)) as [[sup m]|] eqn:V.
    - apply bind_ok in H1 as (s4 & [si nm2] & A2 & H1). apply bind_ok in H1 as (s5 & [l0 ex0] & LP & H1).
      apply ret_ok in H1 as [_ H1]. injection H1 as -> ->. apply loop_made in LP.
      intros x I J. apply (md_in _ _ _ _ _ _ _ _ _ _ _ LP) in I as [I|I]; [apply (EX x I); apply in_or_app; auto|].
      apply (ND3 x); [|exact J]. subst x. unfold item_names. rewrite flat_map_app. apply in_or_app. right. cbn. rewrite V. left. reflexivity.
    - apply ret_ok in H1 as [_ H1]. injection H1 as -> ->. intros x I J. apply (EX x I). apply in_or_app. auto. }
  destruct (IH _ _ _ _ H2 ND2 EX2) as [R1 R2]. clear IH H2.
  assert (ONE : (forall n mm, In (STraitItem n mm) l1 -> exists sup m si nm2 s4 s5, virtual_kind (fa_kind fa) = Some (sup, m) /\
       analyze_foreign_fn env nm fn SimpleForSubclasses (Some (fa_rust fa)) s4 = (s5, OOk (si, nm2)) /\
       STraitItem n mm = create_subclass_trait_item (fe_policy env) (trait_api_name sup (fa_rust fa)) si m sup (is_pure (fa_kind si))) /\
    (forall n sub d, In (SSubclassFn n sub d) l1 -> exists sup m si nm2 s4 s5 deps, virtual_kind (fa_kind fa) = Some (sup, m) /\
       analyze_foreign_fn env nm fn SimpleForSubclasses (Some (fa_rust fa)) s4 = (s5, OOk (si, nm2)) /\
       In sub (subclasses_of apis sup) /\
       SSubclassFn n sub d = create_subclass_function (fe_policy env) sub si nm m sup deps /\ In (trait_api_name sup (fa_rust fa)) deps /\
       In (create_subclass_trait_item (fe_policy env) (trait_api_name sup (fa_rust fa)) si m sup (is_pure (fa_kind si))) l1 /\
       (is_pure (fa_kind si) = false -> exists n' fn' fa', In (SFunction n' fn' fa' PvOther) l1 /\ In (an_name n') deps /\
         fn' = create_subclass_fn_wrapper sub (super_fn_name [] (fa_rust fa)) fn /\
         exists s s', analyze_foreign_fn env (AN (super_fn_name [] (fa_bridge fa)) None) fn' SimpleForSubclasses None s = (s', OOk (fa', n'))))).
  { destruct (virtual_kind (fa_kind fa)) as [[sup m]|] eqn:V.
    - apply bind_ok in H1 as (s4 & [si nm2] & A2 & H1). apply bind_ok in H1 as (s5 & [l0 ex0] & LP & H1).
      apply ret_ok in H1 as [_ H1]. injection H1 as -> ->. apply loop_made in LP.
      assert (NEW : ~ In (trait_api_name sup (fa_rust fa)) ex).
      { intros I. apply (EX _ I). apply in_or_app. left. unfold item_names. rewrite flat_map_app. apply in_or_app. right. cbn. rewrite V. left. reflexivity. }
      split.
      + intros n mm I. apply in_app_or in I as [I|[I|[]]]; [|discriminate].
        exists sup, m, si, nm2, s3, s4. split; [reflexivity|]. split; [exact A2|]. exact (md_item _ _ _ _ _ _ _ _ _ _ _ LP _ _ I).
      + intros n sub d I. apply in_app_or in I as [I|[I|[]]]; [|discriminate].
        destruct (md_fn _ _ _ _ _ _ _ _ _ _ _ LP _ _ _ I) as (IN & deps & D & E & P).
        exists sup, m, si, nm2, s3, s4, deps. split; [reflexivity|]. split; [exact A2|]. split; [exact IN|]. split; [exact E|]. split; [exact D|].
        split.
        * apply in_or_app. left. apply (md_new _ _ _ _ _ _ _ _ _ _ _ LP); [|exact NEW]. intros Z. rewrite Z in IN. contradiction.
        * intros Q. destruct (P Q) as (n' & fn' & fa' & I' & R). exists n', fn', fa'. split; [apply in_or_app; left; exact I'|exact R].
    - apply ret_ok in H1 as [_ H1]. injection H1 as -> ->. split; [intros n mm [I|[]]|intros n sub d [I|[]]]; discriminate. }
  destruct ONE as [O1 O2]. split.
  - intros n mm I. apply in_app_or in I as [I|I].
    + destruct (O1 _ _ I) as (sup & m & si & nm2 & s4 & s5 & V & A2 & E).
      exists name, fn, fa, si, nm, nm2, sup, m, st, s3, s4, s5. split; [left; reflexivity|]. auto.
    + destruct (R1 _ _ I) as (name' & fn' & fa' & si & nm' & nm2 & sup & m & t1 & t2 & t3 & t4 & IN & R).
      exists name', fn', fa', si, nm', nm2, sup, m, t1, t2, t3, t4. split; [right; exact IN|exact R].
  - intros n sub d I. apply in_app_or in I as [I|I].
    + destruct (O2 _ _ _ I) as (sup & m & si & nm2 & s4 & s5 & deps & V & A2 & IN & E & D & T & P).
      exists name, fn, fa, si, nm, nm2, sup, m, st, s3, s4, s5, deps. split; [left; reflexivity|]. split; [exact A1|]. split; [exact V|].
      split; [exact A2|]. split; [exact IN|]. split; [exact E|]. split; [exact D|]. split; [apply in_or_app; left; exact T|].
      intros Q. destruct (P Q) as (n' & fn' & fa' & I' & R). exists n', fn', fa'. split; [apply in_or_app; left; exact I'|exact R].
    + destruct (R2 _ _ _ I) as (name' & fn' & fa' & si & nm' & nm2 & sup & m & t1 & t2 & t3 & t4 & deps & IN & A & V & A2 & IS & E & D & T & P).
      exists name', fn', fa', si, nm', nm2, sup, m, t1, t2, t3, t4, deps. split; [right; exact IN|]. split; [exact A|]. split; [exact V|].
      split; [exact A2|]. split; [exact IS|]. split; [exact E|]. split; [exact D|]. split; [apply in_or_app; right; exact T|].
      intros Q. destruct (P Q) as (n' & fn'' & fa'' & I' & R). exists n', fn'', fa''. split; [apply in_or_app; right; exact I'|exact R].
Qed.

(** [apis] is what reaches the code generation from a run of the analysis: of the subclass code only
    what the analysis produced, and no trait item is lost on which a kept function depends. *)
Record reaches (env : fn_env) (others : list sapi) (fns : list (api_name * func)) (l apis : list sapi) (sups : list qname) : Prop := {
  re_run : exists st st', analyze_functions env others fns [] st = (st', OOk l);
  re_names : NoDup (item_names l);
  re_fns : forall n s d, In (SSubclassFn n s d) apis -> In (SSubclassFn n s d) l;
  re_items : forall n m, In (STraitItem n m) apis -> In (STraitItem n m) l;
  re_deps : forall n s d q m, In (SSubclassFn n s d) apis -> In q (sf_deps d) -> In (STraitItem q m) l -> In (STraitItem q m) apis;
  re_sups : forall sub sup, In (SSubclass sub sup) others -> In sup sups
}.

Lemma subclasses_of_in apis sup sub : In sub (subclasses_of apis sup) <-> In (SSubclass sub sup) apis.
Proof.
  unfold subclasses_of. rewrite in_flat_map. split.
  - intros (a & I & J). destruct a; try contradiction. destruct (qn_eqb sup0 sup) eqn:E; [|contradiction].
    apply qn_eqb_eq in E as ->. destruct J as [->|[]]. exact I.
  - intros I. eexists. split; [exact I|]. cbn. rewrite qn_eqb_refl. left. reflexivity.
Qed.

(** The method of the [_methods] trait which the function called from C++ calls exists, and takes and
    returns what that function passes on. *)
Theorem c74_upcalls_have_methods : forall env others fns l apis sups policy out u name ps ret mu tr method args,
  reaches env others fns l apis sups -> generate_all policy sups apis = Some out ->
  In (OUpcall u name ps ret mu tr method args) out ->
  exists sup, tr = methods_trait_name sup /\ (exists sub, In (SSubclass sub sup) others) /\
    forall abs n, In (SType sup abs n) apis -> abs = false \/ n = 0 ->
    exists parent tfns f, In (OTrait tr parent tfns) out /\ In f tfns /\ g_name f = method /\ g_unsafe f = u /\ g_ret f = ret /\
      g_params f = PSelf mu :: map (fun p => PArg (fst p) (snd p)) (tl ps) /\ args = arg_names (g_params f).
Proof.
  intros env others fns l apis sups policy out u name ps rt mu tr method args RE G I.
  apply (generate_all_in _ _ _ _ G) in I as (a & lo & IA & GA & IT).
  assert (A : exists s d n, a = SSubclassFn n s d /\ OUpcall u name ps rt mu tr method args = generate_subclass_fn n d).
  { destruct a as [? ? ? ?|? ?|nn s d|sub sup|q abs n|?]; try (injection GA as <-; cbn in IT; intuition discriminate).
    - injection GA as <-. destruct IT as [IT|[]]. eauto.
    - exfalso. cbn in GA. unfold generate_subclass in GA.
      assert (C : forall b, ~ In (OUpcall u name ps rt mu tr method args) (if b : bool then [OPeerConstructor (qn_item sub) (qn_item (subclass_cpp sub))] else [])).
      { intros []; cbn; intuition discriminate. }
      destruct (superclass_methods sups apis sup) as [ms|]; [|injection GA as <-; destruct (C _ IT)].
      destruct (all_some _) as [[|f r]|]; [injection GA as <-; destruct (C _ IT)| |discriminate].
      injection GA as <-. destruct IT as [IT|IT]; [discriminate|destruct (C _ IT)].
    - destruct (type_out _ _ _ _ _ _ _ GA _ IT) as (ms & fs & _ & _ & _ & [E|[E _]]); discriminate. }
  clear GA IT lo. destruct A as (s & d & n & -> & O).
  destruct (re_run _ _ _ _ _ _ RE) as (st & st' & RUN).
  destruct (run_made _ _ _ _ _ _ _ RUN (re_names _ _ _ _ _ _ RE) (fun x F => match F with end)) as [_ R].
  destruct (R _ _ _ (re_fns _ _ _ _ _ _ RE _ _ _ IA)) as
    (nm0 & fn & fa & si & nm & nm2 & sup & m & s1 & s2 & s3 & s4 & deps & _ & _ & _ & _ & IS & E & DP & TI & _). clear R.
  apply subclasses_of_in in IS.
  assert (ED : d = SF (("me", TRef false None (TPath [] (sc_holder s) [])) :: tl (fa_params si)) (fa_ret si) (sf_cpp d) (fa_rust si) sup m deps
                 (sub_unsafe (fe_policy env) si) (is_pure (fa_kind si))).
  { unfold create_subclass_function in E. injection E as _ ->. reflexivity. }
  assert (TA : In (STraitItem (trait_api_name sup (fa_rust fa))
       (SM (fa_rust si) sup (fa_params si) (map a_name (fa_details si)) (fa_ret si) m (sub_unsafe (fe_policy env) si) (is_pure (fa_kind si)))) apis).
  { eapply (re_deps _ _ _ _ _ _ RE); [exact IA| |exact TI]. rewrite ED. exact DP. }
  rewrite ED in O. cbn in O. injection O as -> _ -> -> -> -> -> ->.
  exists sup. split; [reflexivity|]. split; [eauto|]. intros abs n0 T V.
  set (mm := SM _ _ _ _ _ _ _ _) in TA.
  assert (M : superclass_methods sups apis sup =
    Some (flat_map (fun a => match a with STraitItem _ m => if qn_eqb (sm_receiver m) sup then [m] else [] | _ => [] end) apis)).
  { unfold superclass_methods. rewrite (proj2 (qmem_true sup sups)); [reflexivity|]. exact (re_sups _ _ _ _ _ _ RE _ _ IS). }
  destruct (type_has _ _ _ _ _ _ _ _ G T V M) as (fs & AS & TR & _). apply all_some_ok in AS.
  assert (MI : In mm (flat_map (fun a => match a with STraitItem _ m => if qn_eqb (sm_receiver m) sup then [m] else [] | _ => [] end) apis)).
  { apply in_flat_map. eexists. split; [exact TA|]. cbn. rewrite qn_eqb_refl. left. reflexivity. }
  destruct (Forall2_in_l _ _ _ AS _ MI) as (p & IP & TF).
  eexists _, _, (snd p). split; [exact TR|]. split; [apply in_map; exact IP|].
  unfold trait_fns in TF. destruct (with_self (sm_mut mm) (sm_params mm)) as [pl|] eqn:W; [|discriminate].
  assert (SN : snd p = GF (wrapper_token (sm_unsafe mm)) (sm_name mm) pl (sm_ret mm) (g_body (snd p))).
  { destruct (sm_pure mm); injection TF as <-; reflexivity. }
  rewrite SN. cbn [g_name g_unsafe g_ret g_params]. unfold mm in *. cbn [sm_name sm_unsafe sm_ret sm_mut sm_params] in *.
  do 3 (split; [reflexivity|]). unfold with_self in W. destruct (fa_params si) as [|x r]; [discriminate|]. injection W as <-.
  cbn [tl]. split; [reflexivity|]. unfold args_from_sig, arg_names. cbn.
  clear. induction r as [|y r IH]; [reflexivity|]. cbn. f_equal. exact IH.
Qed.
Print Assumptions c74_upcalls_have_methods.

(** The implementation of a [_supers] trait hands its own parameters, in order, to the peer's
    function of the same name. *)
Theorem c74_impls_pass_parameters : forall env others fns l apis sups policy out tr id impl f,
  reaches env others fns l apis sups ->
  (forall name fn, In (name, fn) fns -> this_first fn /\ steady_receiver env (qn_ns (an_name name)) fn) ->
  generate_all policy sups apis = Some out ->
  In (OImpl tr id impl) out -> In f impl ->
  exists mu rest, g_params f = PSelf mu :: rest /\ g_body f = Some (CPeer mu (g_name f), arg_names (g_params f)).
Proof.
  intros env others fns l apis sups policy out tr id impl f RE FN G I IF.
  apply (generate_all_in _ _ _ _ G) in I as (a & lo & IA & GA & IT).
  destruct (impl_out _ _ _ _ _ _ _ _ GA IT) as (sub & sup & ms & -> & -> & -> & M & B & _).
  apply all_some_ok in B. destruct (Forall2_in_r _ _ _ B _ IF) as (mm & IM & E). apply filter_In in IM as [IM _].
  unfold superclass_methods in M. destruct (qmem sup sups); [|discriminate]. injection M as <-.
  apply in_flat_map in IM as (x & IX & IM). destruct x as [| xn xm | | | |]; try contradiction.
  destruct (qn_eqb _ _); [|contradiction]. destruct IM as [->|[]].
  destruct (re_run _ _ _ _ _ _ RE) as (st & st' & RUN).
  destruct (run_made _ _ _ _ _ _ _ RUN (re_names _ _ _ _ _ _ RE) (fun x F => match F with end)) as [R _].
  destruct (R _ _ (re_items _ _ _ _ _ _ RE _ _ IX)) as
    (name & fn & fa & si & nm & nm2 & sup' & m & s1 & s2 & s3 & s4 & INF & A1 & V & A2 & EQ). clear R.
  destruct (FN _ _ INF) as [TF SR].
  destruct (simpler_same _ _ _ _ _ _ _ _ _ _ _ _ _ _ A1 V A2 TF SR) as [KS _]. rewrite <- KS in V.
  destruct (virtual_params _ _ _ _ _ _ _ _ _ _ A2 V TF) as (p & ps & DT & _ & _ & _ & NM & NE).
  unfold create_subclass_trait_item in EQ. injection EQ as _ ->.
  unfold impl_fn in E. cbn [sm_mut sm_params sm_name sm_unsafe sm_ret sm_pnames] in E.
  unfold with_self in E. destruct (fa_params si) as [|y r]; [contradiction|]. injection E as <-. cbn [g_params g_body g_name].
  eexists _, _. split; [reflexivity|]. cbn [tl] in NM. f_equal. f_equal. rewrite DT. cbn [map tl]. rewrite map_map, <- NM.
  unfold arg_names. cbn. clear. induction r as [|z r IH]; [reflexivity|]. cbn. f_equal. exact IH.
Qed.
Print Assumptions c74_impls_pass_parameters.

(** Every method called from C++ which is not pure has a C++ function calling the superclass's version:
    it is among the dependencies, takes the inputs of the overridden method, and is a method of the
    subclass's C++ class named after it. *)
Theorem c74_super_functions : forall env others fns l apis sups n sub d,
  reaches env others fns l apis sups -> In (SSubclassFn n sub d) apis -> sf_pure d = false ->
  (forall name fn, In (name, fn) fns -> this_first fn /\ steady_receiver env (qn_ns (an_name name)) fn) ->
  exists name fn fa nm s1 s2 n' fn' fa', In (name, fn) fns /\
    analyze_foreign_fn env name fn Regular None s1 = (s2, OOk (fa, nm)) /\ fa_rust fa = sf_method d /\ n = override_name sub (an_name nm) /\
    In (SFunction n' fn' fa' PvOther) l /\ In (an_name n') (sf_deps d) /\
    f_ident fn' = sf_method d +++ "_super" /\ f_this fn' = Some (subclass_cpp sub) /\ f_inputs fn' = f_inputs fn /\ f_output fn' = f_output fn /\
    f_vis fn' = VisPublic /\ f_virtual fn' = None.
Proof.
  intros env others fns l apis sups n sub d RE I P FN.
  destruct (re_run _ _ _ _ _ _ RE) as (st & st' & RUN).
  destruct (run_made _ _ _ _ _ _ _ RUN (re_names _ _ _ _ _ _ RE) (fun x F => match F with end)) as [_ R].
  destruct (R _ _ _ (re_fns _ _ _ _ _ _ RE _ _ _ I)) as
    (name & fn & fa & si & nm & nm2 & sup & m & s1 & s2 & s3 & s4 & deps & INF & A1 & V & A2 & IS & E & DP & TI & PU). clear R.
  destruct (FN _ _ INF) as [TF SR].
  destruct (simpler_same _ _ _ _ _ _ _ _ _ _ _ _ _ _ A1 V A2 TF SR) as [_ RS].
  assert (EN : n = override_name sub (an_name nm)) by (unfold create_subclass_function in E; congruence).
  assert (ED : sf_method d = fa_rust si /\ sf_deps d = deps /\ sf_pure d = is_pure (fa_kind si)).
  { unfold create_subclass_function in E. injection E as _ ->. auto. }
  destruct ED as (E1 & E2 & E3). rewrite P in E3. symmetry in E3.
  destruct (PU E3) as (n' & fn' & fa' & IN & D & -> & _).
  exists name, fn, fa, nm, s1, s2, n', (create_subclass_fn_wrapper sub (super_fn_name [] (fa_rust fa)) fn), fa'.
  split; [exact INF|]. split; [exact A1|]. split; [congruence|]. split; [exact EN|]. split; [exact IN|]. split; [rewrite E2; exact D|].
  rewrite E1, RS. repeat split.
Qed.
Print Assumptions c74_super_functions.

(** Every override is of a virtual method of the superclass: it has the C++ name of that method, is const exactly if the method is, is a
    method of the subclass's C++ class, and calls the Rust function of the override's own name. *)
Theorem c74_overrides_methods : forall env others fns l apis sups n sub d,
  reaches env others fns l apis sups -> In (SSubclassFn n sub d) apis -> (forall name fn, In (name, fn) fns -> this_first fn) ->
  exists name fn mu t rest, In (name, fn) fns /\ f_virtual fn <> None /\ f_inputs fn = ("this", TPtr mu t) :: rest /\
    (sf_mut d = MMutable <-> mu = true) /\
    cf_kind (sf_cpp d) = (if mu then CkMethod else CkConstMethod) /\
    (forall c, an_cpp name = Some c -> cf_original_name (sf_cpp d) = c) /\
    cf_qualification (sf_cpp d) = Some (subclass_cpp sub) /\ cf_payload (sf_cpp d) = CbFunctionCall [] (qn_item n) /\
    cf_pass_obs (sf_cpp d) = true.
Proof.
  intros env others fns l apis sups n sub d RE I FN.
  destruct (re_run _ _ _ _ _ _ RE) as (st & st' & RUN).
  destruct (run_made _ _ _ _ _ _ _ RUN (re_names _ _ _ _ _ _ RE) (fun x F => match F with end)) as [_ R].
  destruct (R _ _ _ (re_fns _ _ _ _ _ _ RE _ _ _ I)) as
    (name & fn & fa & si & nm & nm2 & sup & m & s1 & s2 & s3 & s4 & deps & INF & A1 & V & _ & _ & E & _). clear R.
  pose proof (proj1 (analyze_ok _ _ _ _ _ _ _ _ _ A1)) as NM.
  apply analyze_head in A1 as (r1 & r2 & ps & bads & r3 & r4 & ideal & r5 & r6 & ctx & P1 & I1 & K1).
  pose proof (virtual_receiver _ _ _ _ _ _ _ _ _ _ _ _ _ _ _ _ K1 V) as RC.
  destruct (virtual_shape _ _ _ _ _ _ _ _ _ _ _ _ _ _ _ _ K1 V) as (_ & _ & _ & _ & _ & v & FV & _).
  destruct (params_self _ _ _ _ _ _ _ _ (FN _ _ INF) P1) as [(t & rest & p & r & u1 & u2 & FI & -> & C1 & F1)|[F1 _]]; [|rewrite F1 in RC; discriminate].
  apply this_arg_self in C1 as (x1 & x2 & t1 & T1 & NS1). rewrite F1 in RC. destruct (a_self (snd p)) as [[q1 m1]|]; [|congruence]. cbn in RC. injection RC as ->.
  unfold create_subclass_function in E. injection E as -> ->. cbn [sf_cpp sf_mut cf_kind cf_original_name cf_qualification cf_payload cf_pass_obs].
  unfold this_details in T1. destruct t as [| |mu [lead id args| | | | |] | | |]; try discriminate.
  assert (M : m = if mu then MMutable else MConst).
  { destruct (match unwrap_marker opaque_marker lead id args with Some (TPath l i _) => (l, i) | _ => (lead, id) end) as [l0 i0].
    destruct (f_this fn) as [w|]; [apply ret_ok in T1 as [_ T1]; congruence|]. apply bind_ok in T1 as (y1 & y2 & _ & T1). apply ret_ok in T1 as [_ T1]. congruence. }
  subst m. exists name, fn, mu, (TPath lead id args), rest. split; [exact INF|]. split; [congruence|]. split; [exact FI|].
  split; [destruct mu; split; congruence|]. split; [destruct mu; reflexivity|]. split; [|auto].
  intros c C. rewrite NM. cbn [an_cpp]. rewrite C. reflexivity.
Qed.
Print Assumptions c74_overrides_methods.

(** * C55 *)

(** A default constructor of the peer is generated exactly for the subclasses all of whose constructors
    take no parameters, if there is one, and only under the policy that functions are safe. *)
Theorem c55_peer_constructor : forall policy sups apis out id cpp,
  generate_all policy sups apis = Some out ->
  (In (OPeerConstructor id cpp) out <->
   policy = AllFunctionsSafe /\ exists sub sup, In (SSubclass sub sup) apis /\ qn_item sub = id /\ cpp = id +++ "Cpp" /\
     (exists n fn fa c, In (SFunction n fn fa (PvSubclassCtor sub true c)) apis) /\
     (forall n fn fa t c, In (SFunction n fn fa (PvSubclassCtor sub t c)) apis -> t = true)).
Proof.
  intros policy sups apis out id cpp G.
  assert (CT : forall t sub, In sub (ctor_subclasses t apis) <-> exists n fn fa c, In (SFunction n fn fa (PvSubclassCtor sub t c)) apis).
  { intros t sub. unfold ctor_subclasses. rewrite in_flat_map. split.
    - intros (a & I & J). destruct a as [n fn fa [|s t' c]| | | | |]; try contradiction.
      destruct (Bool.eqb t' t) eqn:B; [|contradiction]. apply eqb_prop in B as ->. destruct J as [->|[]]. eauto.
    - intros (n & fn & fa & c & I). eexists. split; [exact I|]. cbn. rewrite eqb_reflx. left. reflexivity. }
  assert (TC : forall sub, trivially_constructed apis sub = true <->
     (exists n fn fa c, In (SFunction n fn fa (PvSubclassCtor sub true c)) apis) /\
     (forall n fn fa t c, In (SFunction n fn fa (PvSubclassCtor sub t c)) apis -> t = true)).
  { intros sub. unfold trivially_constructed. rewrite andb_true_iff, negb_true_iff, qmem_true, qmem_false, CT, CT. split.
    - intros [A B]. split; [exact A|]. intros n fn fa [] c I; [reflexivity|]. exfalso. apply B. eauto.
    - intros [A B]. split; [exact A|]. intros (n & fn & fa & c & I). apply B in I. discriminate. }
  rewrite (generate_all_in _ _ _ _ G). split.
  - intros (a & l & IA & GA & IO). destruct a as [? ? ? ?|? ?|? ? d|sub sup|q abs n|?]; try (injection GA as <-; cbn in IO; intuition discriminate).
    2:{ destruct (type_out _ _ _ _ _ _ _ GA _ IO) as (ms & fs & _ & _ & _ & [E|[E _]]); discriminate. }
    cbn in GA. unfold generate_subclass in GA.
    set (b := trivially_constructed apis sub && _) in GA.
    assert (IC : In (OPeerConstructor id cpp) (if b then [OPeerConstructor (qn_item sub) (qn_item (subclass_cpp sub))] else [])).
    { destruct (superclass_methods sups apis sup) as [ms|]; [|injection GA as <-; exact IO].
      destruct (all_some _) as [[|f r]|]; [injection GA as <-; exact IO| |discriminate].
      injection GA as <-. destruct IO as [IO|IO]; [discriminate|exact IO]. }
    destruct b eqn:B; [|contradiction]. destruct IC as [E|[]]. injection E as <- <-. unfold b in B.
    apply andb_true_iff in B as [B1 B2]. split; [destruct policy; [reflexivity|discriminate|discriminate]|].
    exists sub, sup. split; [exact IA|]. split; [reflexivity|]. split; [reflexivity|]. apply TC. exact B1.
  - intros (-> & sub & sup & IA & <- & -> & T). apply TC in T.
    destruct (generate_all_some _ _ _ _ G _ IA) as (l & GA). exists (SSubclass sub sup), l. split; [exact IA|]. split; [exact GA|].
    cbn in GA. rewrite T in GA. cbn in GA. unfold generate_subclass in GA.
    destruct (superclass_methods sups apis sup) as [ms|]; [|injection GA as <-; left; reflexivity].
    destruct (all_some _) as [[|f r]|]; [injection GA as <-; left; reflexivity| |discriminate].
    injection GA as <-. right. left. reflexivity.
Qed.
Print Assumptions c55_peer_constructor.

(** Every function in the result was analysed. *)
Lemma run_analysed env apis : forall fns ex st st' l,
  analyze_functions env apis fns ex st = (st', OOk l) ->
  (forall n fn fa pv, In (SFunction n fn fa pv) l -> pv = PvOther /\ exists name soph pre s s', analyze_foreign_fn env name fn soph pre s = (s', OOk (fa, n))) /\
  (forall sub sup, ~ In (SSubclass sub sup) l).
Proof.
  assert (IT : forall fn nm sup m fa si sub ex st st' l ex', subclass_items env fn nm sup m fa si sub ex st = (st', OOk (l, ex')) ->
    (forall n fn fa pv, In (SFunction n fn fa pv) l -> pv = PvOther /\ exists name soph pre s s', analyze_foreign_fn env name fn soph pre s = (s', OOk (fa, n))) /\
    (forall sub sup, ~ In (SSubclass sub sup) l)).
  { intros fn nm sup m fa si sub ex st st' l ex' H. unfold subclass_items in H. apply bind_ok in H as (s1 & [supers deps] & H1 & H). apply ret_ok in H as [_ H].
    assert (S : forall a, In a supers -> exists n f x, a = SFunction n f x PvOther /\ exists name soph pre s s', analyze_foreign_fn env name f soph pre s = (s', OOk (x, n))).
    { destruct (is_pure (fa_kind si)); [apply ret_ok in H1 as [_ H1]; injection H1 as -> ->; intros a []|].
      apply bind_ok in H1 as (s2 & [a n] & H2 & H1). apply ret_ok in H1 as [_ H1]. injection H1 as -> ->.
      unfold analyze_and_add in H2. apply bind_ok in H2 as (s3 & [fa' n'] & H3 & H2). apply ret_ok in H2 as [_ H2]. injection H2 as -> ->.
      intros x [<-|[]]. eauto 12. }
    split.
    - intros n fn0 fa0 pv I. assert (J : In (SFunction n fn0 fa0 pv) supers).
      { destruct (qmem _ _); injection H as -> ->; apply in_app_or in I as [I|I]; auto;
          [destruct I as [I|[]]|destruct I as [I|[I|[]]]]; discriminate. }
      destruct (S _ J) as (n1 & f1 & x1 & E & R). injection E as -> -> -> ->. auto.
    - intros s1' s2' I. destruct (qmem _ _); injection H as -> ->; apply in_app_or in I as [I|I];
        try (destruct (S _ I) as (? & ? & ? & ? & _); discriminate); [destruct I as [I|[]]|destruct I as [I|[I|[]]]]; discriminate. }
  assert (LP : forall fn nm sup m fa si subs ex st st' l ex', subclass_loop env fn nm sup m fa si subs ex st = (st', OOk (l, ex')) ->
    (forall n fn fa pv, In (SFunction n fn fa pv) l -> pv = PvOther /\ exists name soph pre s s', analyze_foreign_fn env name fn soph pre s = (s', OOk (fa, n))) /\
    (forall sub sup, ~ In (SSubclass sub sup) l)).
  { intros fn nm sup m fa si. induction subs as [|sub subs IH]; intros ex st st' l ex' H; cbn [subclass_loop] in H.
    - apply ret_ok in H as [_ H]. injection H as -> ->. split; intros; [contradiction|auto].
    - apply bind_ok in H as (s1 & [l1 ex1] & H1 & H). apply bind_ok in H as (s2 & [l2 ex2] & H2 & H).
      apply ret_ok in H as [_ H]. injection H as -> ->. apply IT in H1 as [A1 B1]. apply IH in H2 as [A2 B2]. split.
      + intros n fn0 fa0 pv I. apply in_app_or in I as [I|I]; eauto.
      + intros x y I. apply in_app_or in I as [I|I]; [exact (B1 _ _ I)|exact (B2 _ _ I)]. }
  induction fns as [|[name fn] fns IH]; intros ex st st' l H; cbn [analyze_functions] in H.
  { apply ret_ok in H as [_ ->]. split; intros; [contradiction|auto]. }
  apply bind_ok in H as (s1 & [l1 ex1] & H1 & H). apply bind_ok in H as (s2 & r & H2 & H). apply ret_ok in H as [_ ->].
  destruct (IH _ _ _ _ H2) as [R1 R2]. clear IH H2. unfold analyze_foreign_fn_and_subclasses in H1.
  apply bind_ok in H1 as (s3 & [fa nm] & A1 & H1).
  assert (ONE : (forall n fn fa pv, In (SFunction n fn fa pv) l1 -> pv = PvOther /\ exists name soph pre s s', analyze_foreign_fn env name fn soph pre s = (s', OOk (fa, n))) /\
    (forall sub sup, ~ In (SSubclass sub sup) l1)).
  { destruct (virtual_kind (fa_kind fa)) as [[sup m]|].
    - apply bind_ok in H1 as (s4 & [si nm2] & A2 & H1). apply bind_ok in H1 as (s5 & [l0 ex0] & L0 & H1).
      apply ret_ok in H1 as [_ H1]. injection H1 as -> ->. apply LP in L0 as [P1 P2]. split.
      + intros n fn0 fa0 pv I. apply in_app_or in I as [I|[I|[]]]; [eauto|]. injection I as -> -> -> <-. eauto 10.
      + intros x y I. apply in_app_or in I as [I|[I|[]]]; [exact (P2 _ _ I)|discriminate].
    - apply ret_ok in H1 as [_ H1]. injection H1 as -> ->. split.
      + intros n fn0 fa0 pv [I|[]]. injection I as -> -> -> <-. eauto 10.
      + intros x y [I|[]]. discriminate. }
  destruct ONE as [O1 O2]. split.
  - intros n fn0 fa0 pv I. apply in_app_or in I as [I|I]; eauto.
  - intros x y I. apply in_app_or in I as [I|I]; [exact (O2 _ _ I)|exact (R2 _ _ I)].
Qed.

(** A function which is not ignored has all its parameters. *)
Lemma all_params env name fn soph pre s s' fa n : analyze_foreign_fn env name fn soph pre s = (s', OOk (fa, n)) ->
  fa_ignore fa = None -> f_output fn = None -> List.length (fa_details fa) = List.length (f_inputs fn).
Proof.
  intros H IG FO. apply analyze_ok in H as (_ & ps0 & bads & ig0 & ps1 & r & ig2 & b0 & kw & PC).
  pose proof (proj1 (pc_ignore _ _ _ _ _ _ _ _ _ _ _ _ _ _ PC) IG) as [CR _].
  destruct (pc_return _ _ _ _ _ _ _ _ _ _ _ _ _ _ PC) as (t1 & t2 & [[C I2]|(e & _ & RD & E)]).
  2:{ subst r ig2. discriminate. }
  apply convert_return_type_ok in C. rewrite FO in C. subst r. cbn in CR. rewrite CR in I2. symmetry in I2.
  assert (B : bads = []). { unfold check_unsupported in I2. destruct bads; [reflexivity|discriminate]. }
  destruct (pc_params _ _ _ _ _ _ _ _ _ _ _ _ _ _ PC) as (t3 & t4 & CP). apply convert_params_ok in CP as (_ & _ & F). specialize (F B).
  destruct (pc_receiver _ _ _ _ _ _ _ _ _ _ _ _ _ _ PC) as (t5 & t6 & FR).
  rewrite (pc_details _ _ _ _ _ _ _ _ _ _ _ _ _ _ PC). cbn [r_placement ret_default]. rewrite app_nil_r, map_length.
  assert (L0 : List.length ps0 = List.length (f_inputs fn)). { clear - F. induction F; cbn; auto. }
  rewrite <- L0. clear - FR.
  assert (RA : forall idx force ctor mv qs s s' qs', reanalyze env fn (qn_ns (an_name name)) idx force soph ctor mv qs s = (s', OOk qs') -> List.length qs' = List.length qs).
  { intros idx force ctor mv qs s s' qs' R. unfold reanalyze in R. apply bind_ok in R as (u1 & [n t] & _ & R). apply bind_ok in R as (u2 & p & _ & R).
    destruct (Nat.ltb idx (List.length qs)) eqn:LT; [|discriminate]. apply ret_ok in R as [_ ->]. apply Nat.ltb_lt in LT. unfold set_nth.
    rewrite app_length. cbn [List.length]. rewrite firstn_length, skipn_length. lia. }
  assert (KG : forall ig idx force ctor mv qs s s' ig' qs', keep_going ig qs (reanalyze env fn (qn_ns (an_name name)) idx force soph ctor mv qs) s = (s', OOk (ig', qs')) -> List.length qs' = List.length qs).
  { intros ig idx force ctor mv qs s s' ig' qs' K. apply keep_going_ok in K as [[_ K]|[_ ->]]; [exact (RA _ _ _ _ _ _ _ _ K)|reflexivity]. }
  unfold fix_receiver in FR. destruct (fa_kind fa) as [|[]|[]]; try (apply ret_ok in FR as [_ FR]; injection FR as -> ->; reflexivity); try (eapply KG; exact FR).
  apply bind_ok in FR as (u1 & [ig1 qs1] & K1 & FR). rewrite (KG _ _ _ _ _ _ _ _ _ _ FR). exact (KG _ _ _ _ _ _ _ _ _ _ K1).
Qed.

(** The constructors made for a subclass: one for each constructor of the superclass, which constructs the C++ class of the subclass, taking
    the holder of the Rust object before the parameters of that; in C++ it passes those on to the superclass; it counts as trivial exactly if that
    has no parameters (if its parameters could be analysed at all). *)
Theorem c55_subclass_constructors : forall env others fns st st' all n fn' fa' sub t c,
  analyze_all env others fns st = (st', OOk all) ->
  (forall a, In a others -> match a with SFunction _ _ _ _ => False | _ => True end) ->
  In (SFunction n fn' fa' (PvSubclassCtor sub t c)) all ->
  exists n0 fn fa pv sup b, In (SFunction n0 fn fa pv) all /\ fa_kind fa = FMethod (MConstructor b) sup /\ In (SSubclass sub sup) others /\
    (exists n1 fn1 fa1 pv1, In (SFunction n1 fn1 fa1 pv1) all /\ (exists tk, fa_kind fa1 = FTraitMethod tk sup) /\ f_special fn1 = Some SmDtor /\
       f_deleted fn1 <> Some ExDeleted /\ f_vis fn1 = VisPublic) /\
    map fst (f_inputs fn') = firstn 1 (map fst (f_inputs fn)) ++ "peer" :: skipn 1 (map fst (f_inputs fn)) /\
    skipn 2 (f_inputs fn') = skipn 1 (f_inputs fn) /\
    (exists x mu t0, hd_error (f_inputs fn) = Some (x, TPtr mu t0) /\
       firstn 2 (f_inputs fn') = [(x, TPtr mu (to_type_path (subclass_cpp sub))); ("peer", TPath ["rust"] "Box" [TPath [] (sc_holder sub) []])]) /\
    f_self_ty fn' = Some (subclass_cpp sub) /\ f_special fn' = f_special fn /\ f_vis fn' = VisPublic /\
    cf_payload c = CbConstructSuperclass (to_cpp_name sup) /\ cf_wrapper_name c = qn_item (subclass_cpp sub) /\
    cf_qualification c = Some (subclass_cpp sub) /\ cf_kind c = CkSynthesizedConstructor /\
    (fa_ignore fa = None -> f_output fn = None -> (t = true <-> List.length (f_inputs fn) = 1)).
Proof.
  intros env others fns st st' all n fn' fa' sub t c H NF I. unfold analyze_all in H.
  apply bind_ok in H as (s1 & l & RUN & H). apply bind_ok in H as (s2 & cs & CS & H). apply ret_ok in H as [_ ->].
  destruct (run_analysed _ _ _ _ _ _ _ RUN) as [AN NS].
  assert (IC : In (SFunction n fn' fa' (PvSubclassCtor sub t c)) cs).
  { apply in_app_or in I as [I|I]; [destruct (NF _ I)|]. apply in_app_or in I as [I|I]; [|exact I]. apply AN in I as [E _]. discriminate. }
  clear I. set (base := others ++ l) in *.
  assert (DT : forall sup, has_destructor base sup = true -> exists n1 fn1 fa1 pv1, In (SFunction n1 fn1 fa1 pv1) base /\
      (exists tk, fa_kind fa1 = FTraitMethod tk sup) /\ f_special fn1 = Some SmDtor /\ f_deleted fn1 <> Some ExDeleted /\ f_vis fn1 = VisPublic).
  { intros sup HD. unfold has_destructor in HD. apply existsb_exists in HD as (a & IA & HD). destruct a as [n1 fn1 fa1 pv1| | | | |]; try discriminate.
    destruct (fa_kind fa1) as [| |tk q'] eqn:K; try discriminate. apply andb_true_iff in HD as [HD V]. apply andb_true_iff in HD as [HD D].
    apply andb_true_iff in HD as [Q S]. apply qn_eqb_eq in Q as ->. exists n1, fn1, fa1, pv1. split; [exact IA|].
    split; [exists tk; exact K|]. split; [destruct (f_special fn1) as [[]|]; try discriminate; reflexivity|].
    split; [destruct (f_deleted fn1) as [[]|]; discriminate|]. destruct (f_vis fn1); try discriminate; reflexivity. }
  assert (CF : forall fn fa sup subs s s' r, ctors_for env fn fa sup subs s = (s', OOk r) -> In (SFunction n fn' fa' (PvSubclassCtor sub t c)) r ->
     In sub subs /\ exists nm, create_subclass_constructor sub fa sup (to_cpp_name sup) fn = Some (fn', nm, PvSubclassCtor sub t c)).
  { intros fn fa sup. induction subs as [|sb subs IH]; intros s s' r Q J; cbn [ctors_for] in Q.
    - apply ret_ok in Q as [_ ->]. contradiction.
    - destruct (create_subclass_constructor sb fa sup (to_cpp_name sup) fn) as [[[f2 nm] pv]|] eqn:CR; [|discriminate].
      apply bind_ok in Q as (s3 & [a q] & Q1 & Q). apply bind_ok in Q as (s4 & r' & Q2 & Q). apply ret_ok in Q as [_ ->].
      destruct J as [J|J].
      + unfold analyze_and_add in Q1. apply bind_ok in Q1 as (s5 & [fa2 nm2] & _ & Q1). apply ret_ok in Q1 as [_ Q1]. injection Q1 as -> _.
        injection J as -> -> -> ->. assert (sb = sub) as ->.
        { unfold create_subclass_constructor in CR. destruct (f_inputs fn) as [|[x [| |m e| | |]] rest]; try discriminate. congruence. }
        split; [left; reflexivity|]. exists nm. exact CR.
      + destruct (IH _ _ _ Q2 J) as [A B]. split; [right; exact A|exact B]. }
  assert (SC : forall rest s s' r, subclass_constructors env base rest s = (s', OOk r) -> In (SFunction n fn' fa' (PvSubclassCtor sub t c)) r ->
     exists n0 fn fa pv sup b nm, In (SFunction n0 fn fa pv) rest /\ fa_kind fa = FMethod (MConstructor b) sup /\ has_destructor base sup = true /\
       In sub (subclasses_of base sup) /\ create_subclass_constructor sub fa sup (to_cpp_name sup) fn = Some (fn', nm, PvSubclassCtor sub t c)).
  { induction rest as [|a rest IH]; intros s s' r Q J; cbn [subclass_constructors] in Q.
    - apply ret_ok in Q as [_ ->]. contradiction.
    - apply bind_ok in Q as (s3 & l1 & Q1 & Q). apply bind_ok in Q as (s4 & r' & Q2 & Q). apply ret_ok in Q as [_ ->].
      apply in_app_or in J as [J|J].
      + destruct a as [n0 fn fa pv| | | | |]; try (apply ret_ok in Q1 as [_ ->]; contradiction).
        destruct (fa_kind fa) as [|mk sup|] eqn:K; try (apply ret_ok in Q1 as [_ ->]; contradiction).
        destruct mk; try (apply ret_ok in Q1 as [_ ->]; contradiction).
        all: try (destruct (has_destructor base sup) eqn:HD; [|apply ret_ok in Q1 as [_ ->]; contradiction];
          destruct (CF _ _ _ _ _ _ _ Q1 J) as (A & nm & B); exists n0, fn, fa, pv, sup; eexists _, nm;
          split; [left; reflexivity|]; split; [exact K|]; split; [exact HD|]; split; [exact A|exact B]).
      + destruct (IH _ _ _ Q2 J) as (n0 & fn & fa & pv & sup & b & nm & A & B). exists n0, fn, fa, pv, sup, b, nm. split; [right; exact A|exact B]. }
  destruct (SC _ _ _ _ CS IC) as (n0 & fn & fa & pv & sup & b & nm & A & K & HD & IS & CR).
  exists n0, fn, fa, pv, sup, b. split; [rewrite app_assoc; apply in_or_app; left; exact A|]. split; [exact K|].
  split.
  { apply subclasses_of_in in IS. apply in_app_or in IS as [IS|IS]; [exact IS|destruct (NS _ _ IS)]. }
  split.
  { destruct (DT _ HD) as (n1 & fn1 & fa1 & pv1 & I1 & R). exists n1, fn1, fa1, pv1. split; [rewrite app_assoc; apply in_or_app; left; exact I1|exact R]. }
  unfold create_subclass_constructor in CR. destruct (f_inputs fn) as [|[x [| |m e| | |]] rest] eqn:FI; try discriminate.
  injection CR as <- _ <- <-. cbn [f_inputs map fst firstn skipn app]. split; [reflexivity|]. split; [reflexivity|].
  split; [eexists _, _, _; split; reflexivity|]. do 7 (split; [reflexivity|]).
  intros IG FO. rewrite Nat.eqb_eq, <- FI.
  apply in_app_or in A as [A|A]; [destruct (NF _ A)|]. apply AN in A as (_ & name & soph & pre & u1 & u2 & AF).
  rewrite (all_params _ _ _ _ _ _ _ _ _ AF IG FO). reflexivity.
Qed.
Print Assumptions c55_subclass_constructors.

(** * Refutations and examples *)

(** A class [A] with a subclass [S] in Rust. *)
Definition sg_tenv : tc_env := TCE [QN [] "A"; QN [] "A_b"; QN [] "SCpp"; QN [] "SHolder"] [] [] [] [] (fun _ => false)
  (fun s => String.eqb s "SHolder") (fun s => String.eqb s "SHolder") (fun _ => true) (fun _ => false).
Definition sg_env : fn_env := FE sg_tenv AllFunctionsSafe false (build_pod_safe_type_set []) [] [] [] [] (fun _ => true) "hash" false (fun _ => false) 20.
Definition cls (c : string) : ty := TPath ["root"] c [].
(** A virtual method [n] of the class [c]. *)
Definition sg_meth (c n : string) (v : virtualness) (ins : list (string * ty)) (o : option ty) : api_name * func :=
  (AN (QN [] (c +++ "_" +++ n)) (Some n),
   Func (c +++ "_" +++ n) (("this", TPtr true (cls c)) :: ins) false o (Some v) VisPublic None (Some (QN [] c)) None None None None).
(** A constructor. *)
Definition sg_ctor (c n : string) (ins : list (string * ty)) : api_name * func :=
  (AN (QN [] n) (Some c),
   Func n (("this", TPtr true (cls c)) :: ins) false None None VisPublic (match ins with [] => Some SmDefault | _ => None end)
     (Some (QN [] c)) None None None None).
Definition sg_dtor (c : string) : api_name * func :=
  (AN (QN [] (c +++ "_" +++ c +++ "_destructor")) (Some (c +++ "_destructor")),
   Func (c +++ "_" +++ c +++ "_destructor") [("this", TPtr true (cls c))] false None None VisPublic (Some SmDtor) (Some (QN [] c))
     None None None None).
Definition sg_others : list sapi := [SType (QN [] "A") false 0; SSubclass (QN [] "S") (QN [] "A")].
(** A type the analysis does not support. *)
Definition sg_bad : ty := TOther "fn()".

(** The functions found, in the state the analysis starts with. *)
Definition sg_all (others : list sapi) (fns : list (api_name * func)) : option (list sapi) :=
  match analyze_all sg_env others fns st0 with (_, OOk l) => Some l | _ => None end.
(** Functions of subclasses go when something they depend on is missing
    (engine/src/conversion/analysis/remove_ignored.rs:21-70 [filter_apis_by_ignored_dependents] for these APIs). *)
Definition discard_dependents (apis : list sapi) : list sapi :=
  let names := flat_map (fun a => match a with SFunction n _ _ _ => [an_name n] | STraitItem n _ => [n] | _ => [] end) apis in
  filter (fun a => match a with SSubclassFn _ _ d => forallb (fun q => qmem q names) (sf_deps d) | _ => true end) apis.
Definition kept (apis : list sapi) : list sapi := discard_dependents (discard_ignored apis).

Definition sg_good : list (api_name * func) :=
  [sg_ctor "A" "A_A" []; sg_dtor "A"; sg_meth "A" "m" VtVirtual [("x", byte)] (Some byte); sg_meth "A" "p" VtPure [("y", lref true (cls "A"))] None].

(** [make_peer] calls [SCpp::new], but a constructor with a parameter which is not supported takes the
    name [new] and is then ignored; the only constructor left is called [new1]. *)
Theorem c55_constructor_name_refuted : exists fns all out,
  sg_all sg_others fns = Some all /\ generate_all AllFunctionsSafe [QN [] "A"] (kept all) = Some out /\
  In (OPeerConstructor "S" "SCpp") out /\
  (exists n fn fa c, In (SFunction n fn fa (PvSubclassCtor (QN [] "S") true c)) (kept all) /\ fa_kind fa = FMethod (MConstructor true) (QN [] "SCpp")) /\
  forall n fn fa p k, In (SFunction n fn fa p) (kept all) -> fa_kind fa = FMethod k (QN [] "SCpp") -> fa_rust fa = "new1".
Proof.
  exists [sg_ctor "A" "A_A" [("x", sg_bad)]; sg_ctor "A" "A_A1" []; sg_dtor "A"].
  eexists. eexists. split; [vm_compute; reflexivity|]. split; [vm_compute; reflexivity|].
  split; [right; left; reflexivity|]. split.
  - vm_compute. eexists _, _, _, _. split; [right; right; right; right; left; reflexivity|reflexivity].
  - vm_compute. intros n fn fa p k H. repeat destruct H as [H|H]; try discriminate; try contradiction; injection H as <- <- <- <-; congruence.
Qed.
Print Assumptions c55_constructor_name_refuted.

(** A pure virtual method with a parameter of a type which is not supported is still overridden, by a C++
    method and a call into Rust without the parameter. The C++ method overrides nothing. *)
Theorem c74_override_parameters_refuted : exists fn all n d,
  sg_all sg_others [fn] = Some all /\ In (SSubclassFn n (QN [] "S") d) (kept all) /\
  f_virtual (snd fn) = Some VtPure /\ List.length (tl (f_inputs (snd fn))) = 1 /\ cf_args (sf_cpp d) = [].
Proof.
  exists (sg_meth "A" "p" VtPure [("y", sg_bad)] None). eexists. eexists. eexists. split; [vm_compute; reflexivity|].
  split; [right; right; left; reflexivity|]. vm_compute. repeat split.
Qed.
Print Assumptions c74_override_parameters_refuted.

(** The names of two trait items can be the same for different methods: then the calls from C++ of the
    second have no method. This is why [reaches] asks for different names. *)
Theorem c74_trait_item_names_refuted : exists others fns all out sup,
  sg_all others fns = Some all /\ generate_all AllFunctionsSafe [QN [] "A"; sup] (kept all) = Some out /\
  (exists u name ps ret mu args, In (OUpcall u name ps ret mu (methods_trait_name sup) "c" args) out) /\
  (forall parent tfns, In (OTrait (methods_trait_name sup) parent tfns) out -> tfns = []) /\
  In (SType sup false 0) (kept all).
Proof.
  exists (sg_others ++ [SType (QN [] "A_b") false 0; SSubclass (QN [] "T") (QN [] "A_b")]).
  exists [sg_meth "A" "b_c" VtVirtual [] None; sg_meth "A_b" "c" VtVirtual [] None].
  eexists. eexists. exists (QN [] "A_b"). split; [vm_compute; reflexivity|]. split; [vm_compute; reflexivity|].
  split; [|split].
  - eexists _, _, _, _, _, _. do 5 right. left. reflexivity.
  - intros parent tfns H. repeat destruct H as [H|H]; try discriminate; try contradiction; injection H; intros; subst; reflexivity.
  - vm_compute. right. right. left. reflexivity.
Qed.
Print Assumptions c74_trait_item_names_refuted.

(** A virtual method [m_super] next to a virtual method [m]: the two traits, one of which extends the
    other, declare methods of the same name with different parameters, and the body of [m] calls it. *)
Theorem c74_super_names_refuted : exists fns all out t u ft fu fm,
  sg_all sg_others fns = Some all /\ generate_all AllFunctionsSafe [QN [] "A"] (kept all) = Some out /\
  In (OTrait (supers_trait_name (QN [] "A")) None t) out /\
  In (OTrait (methods_trait_name (QN [] "A")) (Some (supers_trait_name (QN [] "A"))) u) out /\
  In ft t /\ In fu u /\ In fm u /\ g_name ft = g_name fu /\ g_params ft <> g_params fu /\ g_body fm = Some (CSelf (g_name fu), []).
Proof.
  exists [sg_meth "A" "m" VtVirtual [] None; sg_meth "A" "m_super" VtVirtual [("x", byte)] None].
  eexists. eexists. eexists. eexists. eexists. eexists. eexists. split; [vm_compute; reflexivity|]. split; [vm_compute; reflexivity|].
  split; [left; reflexivity|]. split; [right; left; reflexivity|]. split; [left; reflexivity|]. split; [right; left; reflexivity|].
  split; [left; reflexivity|]. split; [reflexivity|]. split; [discriminate|reflexivity].
Qed.
Print Assumptions c74_super_names_refuted.

(** A virtual method with a parameter of a type which is not supported: the method which calls the
    superclass is ignored and the override goes with it, but the trait item stays and the implementation
    of the [_supers] trait calls the method which is not there. *)
Theorem c74_super_function_missing_refuted : exists fns all out impl f,
  sg_all sg_others fns = Some all /\ generate_all AllFunctionsSafe [QN [] "A"] (kept all) = Some out /\
  In (OImpl (supers_trait_name (QN [] "A")) "S" impl) out /\ In f impl /\ g_body f = Some (CPeer true "m_super", []) /\
  (forall n fn fa p, In (SFunction n fn fa p) (kept all) -> fa_rust fa <> "m_super") /\
  (forall n s d, ~ In (SSubclassFn n s d) (kept all)).
Proof.
  exists [sg_meth "A" "m" VtVirtual [("x", sg_bad)] None].
  eexists. eexists. eexists. eexists. split; [vm_compute; reflexivity|]. split; [vm_compute; reflexivity|].
  split; [right; right; left; reflexivity|]. split; [left; reflexivity|]. split; [reflexivity|]. vm_compute. split.
  - intros n fn fa p H. repeat destruct H as [H|H]; try discriminate; contradiction.
  - intros n s d H. repeat destruct H as [H|H]; try discriminate; contradiction.
Qed.
Print Assumptions c74_super_function_missing_refuted.

(** A class with a constructor, a destructor, a virtual and a pure virtual method. *)
Example sg_reaches : exists all l out, sg_all sg_others sg_good = Some all /\
  reaches sg_env sg_others sg_good l (kept all) [QN [] "A"] /\ generate_all AllFunctionsSafe [QN [] "A"] (kept all) = Some out /\
  In (OPeerConstructor "S" "SCpp") out /\ List.length out = 6 /\
  (exists n d, In (SSubclassFn n (QN [] "S") d) (kept all) /\ sf_pure d = false).
Proof.
  eexists. eexists. eexists. split; [vm_compute; reflexivity|]. split; [|split; [vm_compute; reflexivity|]].
  - constructor.
    + exists st0. eexists. vm_compute. reflexivity.
    + vm_compute. repeat (constructor; [intros H; repeat destruct H as [H|H]; try discriminate; contradiction|]). constructor.
    + vm_compute. intros n s d H. repeat destruct H as [H|H]; try discriminate; try contradiction; rewrite <- H; tauto.
    + vm_compute. intros n m H. repeat destruct H as [H|H]; try discriminate; try contradiction; rewrite <- H; tauto.
    + vm_compute. intros n s d q m _ _ H. repeat destruct H as [H|H]; try discriminate; try contradiction; rewrite <- H; tauto.
    + intros sub sup H. repeat destruct H as [H|H]; try discriminate; try contradiction. injection H as <- <-. left. reflexivity.
  - split; [do 3 right; left; reflexivity|]. split; [reflexivity|]. vm_compute. eexists. eexists. split; [do 5 right; left; reflexivity|reflexivity].
Qed.
Example sg_steady : forall name fn, In (name, fn) sg_good -> this_first fn /\ steady_receiver sg_env (qn_ns (an_name name)) fn.
Proof.
  intros name fn H. repeat destruct H as [H|H]; try contradiction; injection H as <- <-.
  all: split; [vm_compute; intros F; repeat destruct F as [F|F]; try discriminate; contradiction|].
  all: unfold steady_receiver; intros t rest soph1 s1 s1' p soph2 s2 s2' e IN _; injection IN as <- <-;
    destruct s2; destruct soph2; vm_compute; discriminate.
Qed.
