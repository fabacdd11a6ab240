(** C95: the builder used from build scripts. *)
From Verif Require Import Base ConfigModel DiscoverModel EngineModel ParseFileModel ParseFileProps LocationsModel BuilderModel.
Local Open Scope list_scope.

(** ** Options *)

Definition settings (l : list setting) (b : builder) : builder := fold_left set_option l b.

Lemma settings_app l1 l2 b : settings (l1 ++ l2) b = settings l2 (settings l1 b).
Proof. apply fold_left_app. Qed.

(** No later call concerns the option. *)
Definition leaves {A} (f : builder -> A) (l : list setting) : Prop := forall s, In s l -> forall b, f (set_option b s) = f b.
Lemma leaves_settings {A} (f : builder -> A) l : leaves f l -> forall b, f (settings l b) = f b.
Proof.
  unfold settings. induction l as [|s l IH]; intros H b; [reflexivity|]. cbn [fold_left]. rewrite IH; [|intros x I; apply H; right; exact I].
  apply H. left. reflexivity.
Qed.
Definition is_clang s := match s with SetClangArgs _ => true | _ => false end.
Definition is_gendir s := match s with SetGendir _ => true | _ => false end.
Definition is_auto s := match s with SetAuto _ => true | _ => false end.
Definition is_force s := match s with SetForce _ => true | _ => false end.
Definition is_suppress s := match s with SetSuppress _ | SetCpp _ => true | _ => false end.
Definition is_annotations s := match s with SetAnnotations _ | SetCpp _ => true | _ => false end.
Definition none_of (p : setting -> bool) (l : list setting) : Prop := forall s, In s l -> p s = false.

Ltac one_option := intros b s; destruct b, s as [?|?|g|?|?|?|?]; cbn; try (destruct (g _ _)); try reflexivity; try discriminate.
Lemma leave_clang b s : is_clang s = false -> bl_clang_args (set_option b s) = bl_clang_args b. Proof. revert b s; one_option. Qed.
Lemma leave_gendir b s : is_gendir s = false -> bl_gendir (set_option b s) = bl_gendir b. Proof. revert b s; one_option. Qed.
Lemma leave_auto b s : is_auto s = false -> bl_auto (set_option b s) = bl_auto b. Proof. revert b s; one_option. Qed.
Lemma leave_force b s : is_force s = false -> bl_force (set_option b s) = bl_force b. Proof. revert b s; one_option. Qed.
Lemma leave_suppress b s : is_suppress s = false -> bl_suppress (set_option b s) = bl_suppress b. Proof. revert b s; one_option. Qed.
Lemma leave_annotations b s : is_annotations s = false -> bl_annotations (set_option b s) = bl_annotations b. Proof. revert b s; one_option. Qed.
Lemma leave_items b s : bl_items (set_option b s) = bl_items b /\ bl_incs (set_option b s) = bl_incs b.
Proof. destruct b, s as [?|?|g|?|?|?|?]; cbn; try (destruct (g _ _)); split; reflexivity. Qed.

(** Whatever other options are set before and after it, in whatever order, an option is what it was last set to; one which is never set has its default; the file and its
    include directories stay as they were given. *)
Theorem c95_options :
  forall items incs l1 l2,
    let b l := settings l (new_builder items incs) in
    (forall l, bl_items (b l) = items /\ bl_incs (b l) = incs)
    /\ (forall v, none_of is_clang l2 -> bl_clang_args (b (l1 ++ SetClangArgs v :: l2)) = v)
    /\ (forall v, none_of is_gendir l2 -> bl_gendir (b (l1 ++ SetGendir v :: l2)) = Some v)
    /\ (forall v, none_of is_auto l2 -> bl_auto (b (l1 ++ SetAuto v :: l2)) = v)
    /\ (forall v, none_of is_force l2 -> bl_force (b (l1 ++ SetForce v :: l2)) = v)
    /\ (forall v, none_of is_suppress l2 -> bl_suppress (b (l1 ++ SetSuppress v :: l2)) = v)
    /\ (forall v, none_of is_annotations l2 -> bl_annotations (b (l1 ++ SetAnnotations v :: l2)) = v)
    /\ (forall f, none_of is_suppress l2 -> none_of is_annotations l2 ->
          (bl_suppress (b (l1 ++ SetCpp f :: l2)), bl_annotations (b (l1 ++ SetCpp f :: l2))) = f (bl_suppress (b l1)) (bl_annotations (b l1)))
    /\ (none_of is_clang l1 -> bl_clang_args (b l1) = []) /\ (none_of is_gendir l1 -> bl_gendir (b l1) = None)
    /\ (none_of is_auto l1 -> bl_auto (b l1) = false) /\ (none_of is_force l1 -> bl_force (b l1) = false)
    /\ (none_of is_suppress l1 -> bl_suppress (b l1) = false) /\ (none_of is_annotations l1 -> bl_annotations (b l1) = None).
Proof.
  intros items incs l1 l2 b. unfold b.
  assert (K : forall (A : Type) (f : builder -> A) p, (forall x s, p s = false -> f (set_option x s) = f x) -> forall l, none_of p l -> forall x, f (settings l x) = f x).
  { intros A f p H l N x. apply leaves_settings. intros s I y. apply H, N, I. }
  repeat split.
  - rewrite (K _ bl_items (fun _ => false)); [reflexivity|intros x s _; apply leave_items|intros s _; reflexivity].
  - rewrite (K _ bl_incs (fun _ => false)); [reflexivity|intros x s _; apply leave_items|intros s _; reflexivity].
  - intros v N. rewrite settings_app. change (SetClangArgs v :: l2) with ([SetClangArgs v] ++ l2). rewrite settings_app, (K _ _ _ leave_clang _ N). destruct (settings l1 _); reflexivity.
  - intros v N. rewrite settings_app. change (SetGendir v :: l2) with ([SetGendir v] ++ l2). rewrite settings_app, (K _ _ _ leave_gendir _ N). destruct (settings l1 _); reflexivity.
  - intros v N. rewrite settings_app. change (SetAuto v :: l2) with ([SetAuto v] ++ l2). rewrite settings_app, (K _ _ _ leave_auto _ N). destruct (settings l1 _); reflexivity.
  - intros v N. rewrite settings_app. change (SetForce v :: l2) with ([SetForce v] ++ l2). rewrite settings_app, (K _ _ _ leave_force _ N). destruct (settings l1 _); reflexivity.
  - intros v N. rewrite settings_app. change (SetSuppress v :: l2) with ([SetSuppress v] ++ l2). rewrite settings_app, (K _ _ _ leave_suppress _ N). destruct (settings l1 _); reflexivity.
  - intros v N. rewrite settings_app. change (SetAnnotations v :: l2) with ([SetAnnotations v] ++ l2). rewrite settings_app, (K _ _ _ leave_annotations _ N). destruct (settings l1 _); reflexivity.
  - intros f N M. rewrite settings_app. change (SetCpp f :: l2) with ([SetCpp f] ++ l2). rewrite settings_app, (K _ _ _ leave_suppress _ N), (K _ _ _ leave_annotations _ M).
    destruct (settings l1 _) as [? ? ? ? ? ? sup ann]. cbn. destruct (f sup ann); reflexivity.
  - intros N. rewrite (K _ _ _ leave_clang _ N). reflexivity.
  - intros N. rewrite (K _ _ _ leave_gendir _ N). reflexivity.
  - intros N. rewrite (K _ _ _ leave_auto _ N). reflexivity.
  - intros N. rewrite (K _ _ _ leave_force _ N). reflexivity.
  - intros N. rewrite (K _ _ _ leave_suppress _ N). reflexivity.
  - intros N. rewrite (K _ _ _ leave_annotations _ N). reflexivity.
Qed.
Print Assumptions c95_options.

(** ** A build *)

Section Build.
Variable hash : config -> string.
Variable nightly : bool.
Variable prelude : string.
Variable convert : bool -> request -> config -> outcome conversion.
Variable cxx_gen : option string -> string -> string -> outcome (string * string).
Variable with_self : self_type -> signature -> signature.
Variable print_mod : string -> string -> string.
Variable cxx_header : string.
Variable bridge_items : string -> string.
Variable bridge_name : nat -> string.

Notation run := (build_listing_files hash nightly prelude convert cxx_gen with_self print_mod cxx_header bridge_items bridge_name).
Notation pairs := (buildable_pairs cxx_gen bridge_items bridge_name).
Notation cpps := (build_cpp cxx_gen bridge_items bridge_name).

Definition location (e : env) (b : builder) : strategy := match bl_gendir b with None => new_strategy e | Some d => Custom d end.
(** The blocks and bridges of the file, before and after generation. *)
Definition blocks (b : builder) : pres (list segment) := parse_file_contents with_self (bl_auto b) (bl_items b).
Definition generated (b : builder) (inc : string) (pf : list segment) : list segment * pres unit :=
  resolve_all (generate hash nightly prelude (convert (bl_force b)) (bl_incs b ++ [inc]) (bl_clang_args b)) pf.

Lemma run_ok e b ws t :
  run e b = (ws, BuildOk t) ->
  exists inc cxx rsd pf pf' u dirs w1 files cpp n outs,
    get_gen_dir (location e b) "include" = Done inc /\ get_gen_dir (location e b) "cxx" = Done cxx /\ get_gen_dir (location e b) "rs" = Done rsd
    /\ blocks b = POk pf /\ generated b inc pf = (pf', POk u) /\ all_include_dirs (get_autocxxes pf') = Done dirs
    /\ cpps b cxx inc 0 0 (get_cpp_buildables pf') = (w1, Done (files, cpp, n)) /\ rs_outputs print_mod (get_autocxxes pf') = Done outs
    /\ n <> 0
    /\ ws = [(jpath inc "cxx.h", strip_system_headers cxx_header (bl_suppress b))] ++ w1 ++ map (fun ct => (jpath rsd (get_rs_filename (fst ct)), snd ct)) outs
    /\ t = Built dirs files (map fst (map (fun ct => (jpath rsd (get_rs_filename (fst ct)), snd ct)) outs)) cpp.
Proof.
  unfold build_listing_files, get_include_dir, get_cxx_dir, get_rs_dir, build_autocxx_inc. fold (location e b). fold (blocks b). intros H.
  destruct (get_gen_dir (location e b) "include") as [inc| |]; [|discriminate..].
  destruct (get_gen_dir (location e b) "cxx") as [cxx| |]; [|discriminate..].
  destruct (get_gen_dir (location e b) "rs") as [rsd| |]; [|discriminate..].
  destruct (blocks b) as [pf| |] eqn:P; [|discriminate..].
  fold (generated b inc pf) in H.
  destruct (generated b inc pf) as [pf' [u| |]] eqn:G; [|discriminate..].
  destruct (all_include_dirs _) as [dirs| |] eqn:D; [|discriminate..].
  destruct (cpps b cxx inc 0 0 _) as [w1 [[[files cpp] n]| |]] eqn:C; [|discriminate..].
  destruct (rs_outputs _ _) as [outs| |] eqn:R; [|discriminate..].
  destruct (Nat.eqb n 0) eqn:N; [discriminate|]. injection H as <- <-. apply Nat.eqb_neq in N.
  exists inc, cxx, rsd, pf, pf', u, dirs, w1, files, cpp, n, outs. repeat (split; [auto|]). reflexivity.
Qed.

(** When a build succeeds, every block of the file was given to bindgen with all include directories of the builder, then the directory of the generated headers,
    then the extra arguments, and was converted with or without wrappers everywhere, as the builder says; the result is what its bindings and C++ code are made of. *)
Theorem c95_requests :
  forall e b ws t, run e b = (ws, BuildOk t) ->
    exists inc pf pf',
      get_gen_dir (location e b) "include" = Done inc /\ blocks b = POk pf /\ fst (generated b inc pf) = pf'
      /\ Forall2 (fun e0 e1 => exists r v,
           make_request hash prelude (bl_incs b ++ [inc]) (bl_clang_args b) (en_config e0) = Done r
           /\ rq_args r = make_clang_args (bl_incs b ++ [inc]) (bl_clang_args b)
           /\ convert (bl_force b) r (en_config e0) = Done v
           /\ e1 = Engine (en_config e0) (Generated (Generation (get_mod_name (en_config e0)) (cv_items v) (cv_cpp v) (bl_incs b ++ [inc]) (cv_header_name v))))
         (get_autocxxes pf) (get_autocxxes pf').
Proof.
  intros e b ws t H. destruct (run_ok e b ws t H) as (inc & cxx & rsd & pf & pf' & u & dirs & w1 & files & cpp & n & outs & Hi & _ & _ & P & G & D & _).
  exists inc, pf, pf'. split; [exact Hi|]. split; [exact P|]. split; [rewrite G; reflexivity|].
  destruct (c38_names_distinct _ _ _ _ G) as [_ F]. clear G P H. revert dirs D. induction F as [|e0 e1 l l' [v E] F IH]; intros dirs D; constructor.
  - cbn [all_include_dirs] in D. unfold include_dirs in D. unfold generate in E.
    destruct (en_state e0) eqn:S0.
    2:{ injection E as <- _. rewrite S0 in D. discriminate. }
    2:{ discriminate. }
    destruct (make_request _ _ _ _ _) as [r| |] eqn:R.
    + exists r. assert (A : rq_args r = make_clang_args (bl_incs b ++ [inc]) (bl_clang_args b)).
      { unfold make_request in R. destruct (bindgen_allowlist hash (en_config e0)); try discriminate. injection R as <-. reflexivity. }
      destruct (convert (bl_force b) r (en_config e0)) as [c| |] eqn:C; destruct (cf_policy (en_config e0)), nightly; try discriminate;
        injection E as <- _; exists c; repeat split; assumption.
    + destruct (cf_policy (en_config e0)), nightly; discriminate.
    + destruct (cf_policy (en_config e0)), nightly; discriminate.
  - cbn [all_include_dirs] in D. destruct (include_dirs e1); try discriminate. destruct (all_include_dirs l') as [d| |]; try discriminate. exact (IH d eq_refl).
Qed.

(** ** What the C++ compiler is given *)

Lemma all_dirs_in l : forall dirs, all_include_dirs l = Done dirs -> forall d, In d dirs <-> exists e l', In e l /\ include_dirs e = Done l' /\ In d l'.
Proof.
  induction l as [|e l IH]; intros dirs H d; cbn in H.
  - injection H as <-. split; [intros []|intros (x & y & [] & _)].
  - destruct (include_dirs e) as [a| |] eqn:E; try discriminate. destruct (all_include_dirs l) as [r| |]; try discriminate. injection H as <-.
    rewrite in_app_iff, (IH r eq_refl d). split.
    + intros [I|(x & y & I & J & K)]; [exists e, a; cbn; auto|exists x, y; cbn; auto].
    + intros (x & y & [<-|I] & J & K); [left; congruence|right; exists x, y; auto].
Qed.

(** The C++ compiler looks in exactly the directories bindgen looked in, provided the file has a block. *)
Theorem c95_includes :
  forall e b ws t inc pf,
    run e b = (ws, BuildOk t) -> get_gen_dir (location e b) "include" = Done inc -> blocks b = POk pf -> get_autocxxes pf <> [] ->
    forall d, In d (bt_includes t) <-> In d (bl_incs b) \/ d = inc.
Proof.
  intros e b ws t inc pf H Hi P N d. destruct (c95_requests e b ws t H) as (inc' & pf0 & pf' & Hi' & P' & G & F).
  destruct (run_ok e b ws t H) as (i2 & cxx & rsd & pf2 & pf2' & u & dirs & w1 & files & cpp & n & outs & Hi2 & _ & _ & P2 & G2 & D & _ & _ & _ & _ & ->).
  assert (inc' = inc) by congruence. assert (i2 = inc) by congruence. assert (pf0 = pf) by congruence. assert (pf2 = pf) by congruence. subst inc' i2 pf0 pf2.
  rewrite G2 in G. cbn in G. subst pf2'. cbn [bt_includes]. rewrite (all_dirs_in _ dirs D d). split.
  - intros (x & y & I & J & K). destruct (Forall2_in_r _ _ _ _ F I) as (e0 & _ & r & v & _ & _ & _ & ->). cbn in J. injection J as <-.
    apply in_app_iff in K. destruct K as [K|[K|[]]]; [left; exact K|right; symmetry; exact K].
  - intros K. inversion F as [A B|e0 e1 l l' (r & v & _ & _ & _ & E1) F' A B]; [symmetry in A; destruct (N A)|].
    exists e1, (bl_incs b ++ [inc]). rewrite E1. split; [left; reflexivity|]. split; [reflexivity|]. apply in_app_iff. destruct K as [K|K]; [left; exact K|right; left; symmetry; exact K].
Qed.

(** Modules of bridges are left alone by generation, and no block is lost. *)
Definition kind (x : cpp_buildable) : option string := match x with BEngine _ => None | BCxx id => Some id end.
Lemma map_flat_map {A B C} (f : B -> C) (g : A -> list B) l : map f (flat_map g l) = flat_map (fun a => map f (g a)) l.
Proof. induction l as [|a l IH]; [reflexivity|]. cbn. rewrite map_app, IH. reflexivity. Qed.
Lemma resolve_seg_kinds gen : forall s found s' f o, resolve_seg gen s found = (s', f, o) -> map kind (seg_buildables s') = map kind (seg_buildables s).
Proof.
  fix IH 1. intros [en|id|m|] found s' f o H; cbn [resolve_seg] in H.
  - destruct (smem _ found); [injection H as <- _ _; reflexivity|]. destruct (gen en) as [e' [?|?|]]; injection H as <- _ _; reflexivity.
  - injection H as <- _ _. reflexivity.
  - destruct ((fix resolve_segs (l : list segment) (found : list string) : list segment * list string * pres unit := _) m found) as [[r f0] o0] eqn:E.
    injection H as <- _ _. cbn [seg_buildables]. rewrite !map_flat_map. revert found r f0 o0 E. induction m as [|a m IHm]; intros found r f0 o0 E.
    + injection E as <- _ _. reflexivity.
    + destruct (resolve_seg gen a found) as [[a' fa] oa] eqn:Ea. assert (Ka := IH a found a' fa oa Ea). destruct oa as [u|x|].
      * destruct ((fix resolve_segs (l : list segment) (found : list string) : list segment * list string * pres unit := _) m fa) as [[r2 f2] o2] eqn:E2.
        injection E as <- _ _. cbn [flat_map]. rewrite Ka, (IHm fa r2 f2 o2 E2). reflexivity.
      * injection E as <- _ _. cbn [flat_map]. rewrite Ka. reflexivity.
      * injection E as <- _ _. cbn [flat_map]. rewrite Ka. reflexivity.
  - injection H as <- _ _. reflexivity.
Qed.
Lemma resolve_kinds gen l l' o : resolve_all gen l = (l', o) -> map kind (get_cpp_buildables l') = map kind (get_cpp_buildables l).
Proof.
  unfold resolve_all. assert (M := resolve_segs_mod gen l []). destruct (resolve_segs gen l []) as [[r f] o0]. intros H. injection H as <- _.
  exact (resolve_seg_kinds gen _ _ _ _ _ M).
Qed.

(** ** Files *)

Definition bridges (l : list cpp_buildable) : nat := List.length (filter (fun x => match x with BCxx _ => true | BEngine _ => false end) l).
Lemma pairs_files_app cxx inc : forall l1 l2 c,
  pairs_files cxx inc c (l1 ++ l2) =
  let '(w, f, g) := pairs_files cxx inc c l1 in let '(w', f', g') := pairs_files cxx inc (c + List.length l1) l2 in (w ++ w', f ++ f', g ++ g').
Proof.
  induction l1 as [|p l1 IH]; intros l2 c.
  - cbn [app pairs_files List.length]. rewrite Nat.add_0_r. destruct (pairs_files cxx inc c l2) as [[w f] g]. reflexivity.
  - cbn [app pairs_files List.length]. rewrite IH, Nat.add_succ_r. destruct (pair_files cxx inc c p) as [[w0 f0] g0].
    destruct (pairs_files cxx inc (S c) l1) as [[w1 f1] g1]. cbn [Nat.add]. destruct (pairs_files cxx inc (S (c + List.length l1)) l2) as [[w2 f2] g2]. rewrite <- !app_assoc. reflexivity.
Qed.

Lemma build_cpp_spec b cxx inc : forall l c k w files cpp n,
  cpps b cxx inc c k l = (w, Done (files, cpp, n)) ->
  exists pss, List.length pss = List.length l
    /\ (forall i x, nth_error l i = Some x -> exists ps, nth_error pss i = Some ps /\ pairs b (k + bridges (firstn i l)) x = Done ps)
    /\ pairs_files cxx inc c (List.concat pss) = (w, files, cpp) /\ n = c + List.length (List.concat pss).
Proof.
  induction l as [|x l IH]; intros c k w files cpp n H; cbn [build_cpp] in H.
  - injection H as <- <- <- <-. exists []. split; [reflexivity|]. split; [intros i x E; destruct i; discriminate|]. split; [reflexivity|]. cbn. lia.
  - destruct (pairs b k x) as [ps| |] eqn:P; try discriminate.
    destruct (pairs_files cxx inc c ps) as [[w0 f0] g0] eqn:F.
    destruct (cpps b cxx inc (c + List.length ps) (if is_bridge x then S k else k) l) as [w1 [[[f1 g1] n1]| |]] eqn:C; try discriminate.
    injection H as <- <- <- <-. destruct (IH _ _ _ _ _ _ C) as (pss & L & A & PF & N).
    exists (ps :: pss). split; [cbn; congruence|]. split; [|split].
    + intros [|i] y E.
      * cbn in E. injection E as <-. exists ps. cbn. unfold bridges. cbn. rewrite Nat.add_0_r. auto.
      * cbn in E. destruct (A i y E) as (qs & Q & R). exists qs. split; [exact Q|]. rewrite <- R. f_equal. unfold bridges. cbn [firstn filter].
        destruct x; cbn; lia.
    + cbn [List.concat]. rewrite pairs_files_app, F, PF. reflexivity.
    + cbn [List.concat]. rewrite app_length. lia.
Qed.

Lemma pairs_files_in cxx inc : forall ps c w files cpp, pairs_files cxx inc c ps = (w, files, cpp) ->
  (forall i p, nth_error ps i = Some p ->
     In (jpath inc (cp_name p), cp_header p) w /\ In (jpath inc (cp_name p)) cpp
     /\ forall x, cp_impl p = Some x -> In (jpath cxx (gen_cxx (c + i)), x) w /\ In (jpath cxx (gen_cxx (c + i))) files /\ In (jpath cxx (gen_cxx (c + i))) cpp)
  /\ (forall f x, In (f, x) w -> In f cpp
        /\ exists i p, nth_error ps i = Some p /\ (f = jpath inc (cp_name p) /\ x = cp_header p \/ f = jpath cxx (gen_cxx (c + i)) /\ cp_impl p = Some x))
  /\ (forall f, In f cpp -> exists x, In (f, x) w)
  /\ (forall f, In f files -> exists i p x, nth_error ps i = Some p /\ cp_impl p = Some x /\ f = jpath cxx (gen_cxx (c + i))).
Proof.
  induction ps as [|p ps IH]; intros c w files cpp H; cbn [pairs_files] in H.
  - injection H as <- <- <-. split; [intros i p E; destruct i; discriminate|]. split; [intros f x []|]. split; intros f [].
  - destruct (pair_files cxx inc c p) as [[w0 f0] g0] eqn:P. destruct (pairs_files cxx inc (S c) ps) as [[w1 f1] g1] eqn:Q. injection H as <- <- <-.
    destruct (IH _ _ _ _ Q) as (A & B & C & D).
    assert (X : In (jpath inc (cp_name p), cp_header p) w0 /\ In (jpath inc (cp_name p)) g0
      /\ (forall x, cp_impl p = Some x -> In (jpath cxx (gen_cxx c), x) w0 /\ In (jpath cxx (gen_cxx c)) f0 /\ In (jpath cxx (gen_cxx c)) g0)
      /\ (forall f x, In (f, x) w0 -> In f g0 /\ (f = jpath inc (cp_name p) /\ x = cp_header p \/ f = jpath cxx (gen_cxx c) /\ cp_impl p = Some x))
      /\ (forall f, In f g0 -> exists x, In (f, x) w0)
      /\ (forall f, In f f0 -> exists x, cp_impl p = Some x /\ f = jpath cxx (gen_cxx c))).
    { unfold pair_files in P. destruct (cp_impl p) as [i|]; injection P as <- <- <-.
      - split; [right; left; reflexivity|]. split; [right; left; reflexivity|]. split; [|split; [|split]].
        + intros x E. injection E as <-. cbn. auto.
        + intros f x [E|[E|[]]]; injection E as <- <-; cbn; auto.
        + intros f [<-|[<-|[]]]; eexists; cbn; eauto.
        + intros f [<-|[]]. exists i. auto.
      - split; [left; reflexivity|]. split; [left; reflexivity|]. split; [|split; [|split]].
        + discriminate.
        + intros f x [E|[]]; injection E as <- <-; cbn; auto.
        + intros f [<-|[]]; eexists; cbn; eauto.
        + intros f []. }
    destruct X as (X1 & X2 & X3 & X4 & X5 & X6). repeat split.
    + destruct i as [|i]; cbn in H; [injection H as <-; apply in_app_iff; left; exact X1|]. apply in_app_iff. right. apply (A i _ H).
    + destruct i as [|i]; cbn in H; [injection H as <-; apply in_app_iff; left; exact X2|]. apply in_app_iff. right. apply (A i _ H).
    + destruct i as [|i]; cbn in H; [injection H as <-; rewrite Nat.add_0_r; apply in_app_iff; left; apply (X3 _ H0)|]. rewrite Nat.add_succ_r. apply in_app_iff. right. apply (A i _ H), H0.
    + destruct i as [|i]; cbn in H; [injection H as <-; rewrite Nat.add_0_r; apply in_app_iff; left; apply (X3 _ H0)|]. rewrite Nat.add_succ_r. apply in_app_iff. right. apply (A i _ H) in H0. apply H0.
    + destruct i as [|i]; cbn in H; [injection H as <-; rewrite Nat.add_0_r; apply in_app_iff; left; apply (X3 _ H0)|]. rewrite Nat.add_succ_r. apply in_app_iff. right. apply (A i _ H) in H0. apply H0.
    + apply in_app_iff in H. apply in_app_iff. destruct H as [H|H]; [left; apply (X4 _ _ H)|right; apply (B _ _ H)].
    + apply in_app_iff in H. destruct H as [H|H].
      * exists 0, p. rewrite Nat.add_0_r. split; [reflexivity|apply (X4 _ _ H)].
      * destruct (B _ _ H) as (_ & i & q & E & O). exists (S i), q. rewrite Nat.add_succ_r. split; [exact E|exact O].
    + intros f I. apply in_app_iff in I. destruct I as [I|I]; [destruct (X5 _ I) as [x J]|destruct (C _ I) as [x J]]; exists x; apply in_app_iff; auto.
    + intros f I. apply in_app_iff in I. destruct I as [I|I].
      * destruct (X6 _ I) as (x & E & ->). exists 0, p, x. rewrite Nat.add_0_r. auto.
      * destruct (D _ I) as (i & q & x & E & J & ->). exists (S i), q, x. rewrite Nat.add_succ_r. auto.
Qed.

Lemma gen_cxx_inj n m : gen_cxx n = gen_cxx m -> n = m.
Proof. unfold gen_cxx. intros H. apply sapp_inj_l, sapp_inj_r, dec_inj in H. exact H. Qed.
Lemma jpath_inj d a b : absolute a = false -> absolute b = false -> jpath d a = jpath d b -> a = b.
Proof.
  unfold jpath. intros -> ->. destruct (String.eqb d ""); [auto|]. destruct (ends_with "/" d); intros H; apply sapp_inj_l in H; [exact H|]. apply sapp_inj_l in H. exact H.
Qed.
Lemma pairs_files_nodup cxx inc : forall ps c w files cpp, pairs_files cxx inc c ps = (w, files, cpp) -> NoDup files.
Proof.
  induction ps as [|p ps IH]; intros c w files cpp H; cbn [pairs_files] in H; [injection H as _ <- _; constructor|].
  destruct (pair_files cxx inc c p) as [[w0 f0] g0] eqn:P. destruct (pairs_files cxx inc (S c) ps) as [[w1 f1] g1] eqn:Q. injection H as _ <- _.
  assert (N := IH _ _ _ _ Q). unfold pair_files in P. destruct (cp_impl p); injection P as _ <- _; [|exact N]. constructor; [|exact N].
  intros I. destruct (pairs_files_in _ _ _ _ _ _ _ Q) as (_ & _ & _ & D). destruct (D _ I) as (i & q & x & _ & _ & E).
  apply jpath_inj in E; [|reflexivity..]. apply gen_cxx_inj in E. lia.
Qed.

(** What cxx generates for a block, from the result of its conversion and with the options of the builder, and beside it the C++ code of the conversion; and for the [k]th bridge. *)
Definition generates (b : builder) (k : nat) (x : cpp_buildable) (ps : list cpp_pair) : Prop :=
  let by_cxx md items name p := exists h i, cxx_gen (bl_annotations b) md items = Done (h, i)
    /\ p = CppPair (strip_system_headers h (bl_suppress b)) (Some (strip_system_headers i (bl_suppress b))) name in
  match x with
  | BEngine e => exists g p, en_state e = Generated g /\ by_cxx (gn_mod g) (gn_items g) (gn_header_name g) p /\ ps = p :: match gn_cpp g with Some q => [q] | None => [] end
  | BCxx id => exists p, by_cxx id (bridge_items id) (bridge_name k) p /\ ps = [p]
  end.
Lemma pairs_generates b k x ps : pairs b k x = Done ps -> generates b k x ps.
Proof.
  unfold buildable_pairs, generates, generate_h_and_cxx, do_cxx_cpp_generation. destruct x as [e|id].
  - destruct (en_state e) as [| |g]; try discriminate. destruct (cxx_gen _ (gn_mod g) (gn_items g)) as [[h i]| |] eqn:C; try discriminate. intros H. injection H as <-.
    exists g. eexists. split; [reflexivity|]. split; [|reflexivity]. exists h, i. auto.
  - destruct (cxx_gen _ id (bridge_items id)) as [[h i]| |] eqn:C; try discriminate. intros H. injection H as <-. eexists. split; [|reflexivity]. exists h, i. auto.
Qed.

(** Every header and every implementation generated for a block or a bridge, in the order of the file, is written: headers under their name in the include directory, the implementation
    of the [i]th pair as [gen{i}.cxx] in the C++ directory. Exactly these implementations are compiled, each once. *)
Theorem c95_compiled :
  forall e b ws t, run e b = (ws, BuildOk t) ->
    exists inc cxx pf pf' pss,
      get_gen_dir (location e b) "include" = Done inc /\ get_gen_dir (location e b) "cxx" = Done cxx
      /\ blocks b = POk pf /\ fst (generated b inc pf) = pf'
      /\ map kind (get_cpp_buildables pf') = map kind (get_cpp_buildables pf)
      /\ List.length pss = List.length (get_cpp_buildables pf)
      /\ (forall i x, nth_error (get_cpp_buildables pf') i = Some x ->
            exists ps, nth_error pss i = Some ps /\ generates b (bridges (firstn i (get_cpp_buildables pf'))) x ps)
      /\ (forall i p, nth_error (List.concat pss) i = Some p ->
            In (jpath inc (cp_name p), cp_header p) ws
            /\ forall c, cp_impl p = Some c -> In (jpath cxx ("gen" +++ dec i +++ ".cxx"), c) ws /\ In (jpath cxx ("gen" +++ dec i +++ ".cxx")) (bt_files t))
      /\ (forall f, In f (bt_files t) ->
            exists i p c, nth_error (List.concat pss) i = Some p /\ cp_impl p = Some c /\ f = jpath cxx ("gen" +++ dec i +++ ".cxx"))
      /\ NoDup (bt_files t).
Proof.
  intros e b ws t H. destruct (run_ok e b ws t H) as (inc & cxx & rsd & pf & pf' & u & dirs & w1 & files & cpp & n & outs & Hi & Hc & _ & P & G & _ & C & _ & _ & -> & ->).
  destruct (build_cpp_spec _ _ _ _ _ _ _ _ _ _ C) as (pss & L & A & F & _). destruct (pairs_files_in _ _ _ _ _ _ _ F) as (B1 & _ & _ & B4).
  assert (K := resolve_kinds _ _ _ _ G). exists inc, cxx, pf, pf', pss. repeat (split; [first [assumption|rewrite G; reflexivity]|]). split; [|split; [|split; [|split]]].
  - rewrite L. assert (K' := f_equal (@List.length _) K). rewrite !map_length in K'. exact K'.
  - intros i x E. destruct (A i x E) as (ps & Q & R). exists ps. split; [exact Q|apply pairs_generates; exact R].
  - intros i p E. destruct (B1 i p E) as (I & _ & J). split; [apply in_app_iff; right; apply in_app_iff; left; exact I|]. intros c X. destruct (J c X) as (J1 & J2 & _).
    split; [apply in_app_iff; right; apply in_app_iff; left; exact J1|exact J2].
  - intros f I. exact (B4 f I).
  - exact (pairs_files_nodup _ _ _ _ _ _ _ F).
Qed.

(** The files listed are exactly those written, but for cxx.h. *)
Theorem c95_listed :
  forall e b ws t inc, run e b = (ws, BuildOk t) -> get_gen_dir (location e b) "include" = Done inc ->
    (forall f, In f (bt_cpp t) \/ In f (bt_rs t) -> exists c, In (f, c) ws)
    /\ (forall f c, In (f, c) ws -> In f (bt_cpp t) \/ In f (bt_rs t) \/ f = jpath inc "cxx.h")
    /\ (forall f, In f (bt_files t) -> In f (bt_cpp t))
    /\ In (jpath inc "cxx.h", strip_system_headers cxx_header (bl_suppress b)) ws.
Proof.
  intros e b ws t inc H Hi. destruct (run_ok e b ws t H) as (inc' & cxx & rsd & pf & pf' & u & dirs & w1 & files & cpp & n & outs & Hi' & _ & _ & P & G & _ & C & _ & _ & -> & ->).
  assert (inc' = inc) by congruence. subst inc'.
  destruct (build_cpp_spec _ _ _ _ _ _ _ _ _ _ C) as (pss & _ & _ & F & _). destruct (pairs_files_in _ _ _ _ _ _ _ F) as (B1 & B2 & B3 & B4).
  cbn [bt_cpp bt_rs bt_files]. split; [|split; [|split]].
  - intros f [I|I].
    + destruct (B3 _ I) as [c J]. exists c. apply in_app_iff. right. apply in_app_iff. left. exact J.
    + apply in_map_iff in I. destruct I as ([f' c] & <- & I). exists c. apply in_app_iff. right. apply in_app_iff. right. exact I.
  - intros f c I. apply in_app_iff in I. destruct I as [[E|[]]|I]; [injection E as <- _; auto|]. apply in_app_iff in I. destruct I as [I|I].
    + left. apply (B2 _ _ I).
    + right. left. apply in_map_iff. exists (f, c). auto.
  - intros f I. destruct (B4 _ I) as (i & p & x & E & J & ->). destruct (B1 i p E) as (_ & _ & J1). apply (J1 x J).
  - apply in_app_iff. left. left. reflexivity.
Qed.

(** The bindings of every block are written to the file in the directory of Rust code where [include_cpp!] with that configuration looks for them. *)
Theorem c95_bindings :
  forall e b ws t, run e b = (ws, BuildOk t) ->
    exists inc rsd pf,
      get_gen_dir (location e b) "include" = Done inc /\ get_gen_dir (location e b) "rs" = Done rsd /\ blocks b = POk pf
      /\ bt_rs t = map (fun e0 => jpath rsd (get_rs_filename (en_config e0))) (get_autocxxes pf)
      /\ forall e0, In e0 (get_autocxxes pf) ->
           exists r v, convert (bl_force b) r (en_config e0) = Done v /\ rq_args r = make_clang_args (bl_incs b ++ [inc]) (bl_clang_args b)
             /\ In (jpath rsd (get_rs_filename (en_config e0)), print_mod (get_mod_name (en_config e0)) (cv_items v)) ws.
Proof.
  intros e b ws t H. destruct (c95_requests e b ws t H) as (inc & pf & pf' & Hi & P & G & F).
  destruct (run_ok e b ws t H) as (i2 & cxx & rsd & pf2 & pf2' & u & dirs & w1 & files & cpp & n & outs & Hi2 & _ & Hr & P2 & G2 & _ & _ & R & _ & -> & ->).
  assert (i2 = inc) by congruence. assert (pf2 = pf) by congruence. subst i2 pf2. rewrite G2 in G. cbn in G. subst pf2'.
  exists inc, rsd, pf. repeat (split; [assumption|]). cbn [bt_rs].
  assert (X : map (fun ct : config * string => jpath rsd (get_rs_filename (fst ct))) outs = map (fun e0 => jpath rsd (get_rs_filename (en_config e0))) (get_autocxxes pf)
    /\ forall e0, In e0 (get_autocxxes pf) -> exists r v, convert (bl_force b) r (en_config e0) = Done v /\ rq_args r = make_clang_args (bl_incs b ++ [inc]) (bl_clang_args b)
         /\ In (en_config e0, print_mod (get_mod_name (en_config e0)) (cv_items v)) outs).
  { clear -F R. revert outs R. induction F as [|e0 e1 l l' (r & v & _ & Q & V & ->) F IH]; intros outs R; cbn in R.
    - injection R as <-. split; [reflexivity|intros e0 []].
    - destruct (rs_outputs print_mod l') as [o| |]; try discriminate. injection R as <-. destruct (IH o eq_refl) as [A B]. split; [cbn [map fst en_config]; f_equal; exact A|].
      intros e2 [<-|I]; [exists r, v; cbn; auto|]. destruct (B e2 I) as (r2 & v2 & B1 & B2 & B3). exists r2, v2. cbn. auto. }
  destruct X as [X1 X2]. split; [rewrite map_map; exact X1|]. intros e0 I. destruct (X2 e0 I) as (r & v & A & B & C). exists r, v. repeat (split; [assumption|]).
  apply in_app_iff. right. apply in_app_iff. right. apply in_map_iff. exists (en_config e0, print_mod (get_mod_name (en_config e0)) (cv_items v)). auto.
Qed.

(** The Rust files are exactly those of the build of C35, so that its theorems on what the macro finds apply to what the builder has written last. *)
Theorem c95_rust_files :
  forall e b ws t, run e b = (ws, BuildOk t) ->
    exists inc pf outs files v ws0, blocks b = POk pf /\ get_gen_dir (location e b) "include" = Done inc
      /\ rs_outputs print_mod (get_autocxxes (fst (generated b inc pf))) = Done outs
      /\ build_rs e (bl_gendir b) outs = Done (files, v) /\ ws = ws0 ++ files /\ map fst files = bt_rs t
      /\ (forall d, bl_gendir b = Some d -> v = Some (jpath d "rs")).
Proof.
  intros e b ws t H. destruct (run_ok e b ws t H) as (inc & cxx & rsd & pf & pf' & u & dirs & w1 & files & cpp & n & outs & Hi & _ & Hr & P & G & _ & _ & R & _ & -> & ->).
  exists inc, pf, outs, (map (fun ct => (jpath rsd (get_rs_filename (fst ct)), snd ct)) outs).
  assert (X : exists v, cargo_env_vars (location e b) = Done v /\ forall d, bl_gendir b = Some d -> v = Some (jpath d "rs")).
  { unfold location. destruct (bl_gendir b) as [d|]; [eexists; split; [reflexivity|]; intros d' E; injection E as <-; reflexivity|].
    unfold cargo_env_vars. assert (Y : forall d, new_strategy e <> Custom d) by (intros d; unfold new_strategy; repeat (match goal with |- context [match ?x with _ => _ end] => destruct x end); discriminate).
    destruct (new_strategy e); try (exists None; split; [reflexivity|discriminate]). destruct (Y _ eq_refl). }
  destruct X as (v & V & VD). exists v. eexists. split; [exact P|]. split; [exact Hi|]. rewrite G. split; [exact R|]. split; [|split; [rewrite app_assoc; reflexivity|split; [reflexivity|exact VD]]].
  unfold build_rs, get_rs_dir. fold (location e b). rewrite Hr, V. reflexivity.
Qed.

(** A build ends with the error that there is no macro exactly when the file can be parsed and has neither a block nor a bridge. *)
Theorem c95_no_macros :
  forall e b, get_gen_dir (location e b) "include" <> Panics ->
    (snd (run e b) = BuildNoMacros <-> exists pf, blocks b = POk pf /\ get_cpp_buildables pf = []).
Proof.
  intros e b L. unfold build_listing_files, get_include_dir, get_cxx_dir, get_rs_dir, build_autocxx_inc. fold (location e b). fold (blocks b).
  assert (S : exists d, get_gen_dir (location e b) "include" = Done (jpath d "include") /\ get_gen_dir (location e b) "cxx" = Done (jpath d "cxx") /\ get_gen_dir (location e b) "rs" = Done (jpath d "rs")).
  { destruct (location e b); cbn in *; try (destruct (L eq_refl)); eexists; repeat split. }
  destruct S as (d & -> & -> & ->). destruct (blocks b) as [pf| |] eqn:P.
  2,3: split; [discriminate|intros (pf & E & _); discriminate].
  fold (generated b (jpath d "include") pf). destruct (generated b (jpath d "include") pf) as [pf' o] eqn:G. assert (K := resolve_kinds _ _ _ _ G). split.
  - destruct o as [u| |]; try discriminate. destruct (all_include_dirs _) as [dirs| |]; try discriminate.
    destruct (cpps b (jpath d "cxx") (jpath d "include") 0 0 _) as [w1 [[[files cpp] n]| |]] eqn:C; try discriminate.
    destruct (rs_outputs _ _); try discriminate. cbn [snd]. destruct (Nat.eqb n 0) eqn:N; [|discriminate]. intros _. apply Nat.eqb_eq in N. exists pf. split; [reflexivity|].
    destruct (build_cpp_spec _ _ _ _ _ _ _ _ _ _ C) as (pss & LL & A & _ & NN). destruct (get_cpp_buildables pf') as [|x l] eqn:B.
    + cbn in K. destruct (get_cpp_buildables pf); [reflexivity|discriminate].
    + destruct (A 0 x eq_refl) as (ps & Q & R). destruct pss as [|ps' pss]; [discriminate|]. cbn in Q. injection Q as ->. cbn [List.concat] in NN. rewrite app_length in NN.
      assert (List.length ps = 0) by lia. unfold buildable_pairs in R. destruct x as [en|id].
      * unfold generate_h_and_cxx in R. destruct (en_state en); try discriminate. destruct (do_cxx_cpp_generation _ _ _ _ _); try discriminate. injection R as <-. discriminate.
      * destruct (do_cxx_cpp_generation _ _ _ _ _); try discriminate. injection R as <-. discriminate.
  - intros (pf0 & E & B). injection E as <-. rewrite B in K. destruct (get_cpp_buildables pf') as [|] eqn:B'; [|discriminate].
    assert (A : get_autocxxes pf = []) by (rewrite engines_of_buildables, B; reflexivity). assert (A' : get_autocxxes pf' = []) by (rewrite engines_of_buildables, B'; reflexivity).
    assert (S := resolve_all_spec (generate hash nightly prelude (convert (bl_force b)) (bl_incs b ++ [jpath d "include"]) (bl_clang_args b)) pf).
    fold (generated b (jpath d "include") pf) in S. rewrite G in S. rewrite A in S. destruct o as [u|x|].
    + rewrite A'. reflexivity.
    + exfalso. destruct x; try (destruct S as (en & en' & y & [] & _)). apply S. constructor.
    + destruct S as (en & en' & [] & _).
Qed.

(** Without a block, the C++ compiler is given no directory. *)
Theorem c95_bridge_only :
  forall e b ws t pf, run e b = (ws, BuildOk t) -> blocks b = POk pf -> get_autocxxes pf = [] -> bt_includes t = [].
Proof.
  intros e b ws t pf H P A.
  destruct (run_ok e b ws t H) as (i2 & cxx & rsd & pf2 & pf2' & u & dirs & w1 & files & cpp & n & outs & Hi2 & _ & _ & P2 & G2 & D & _ & _ & _ & _ & ->).
  assert (pf2 = pf) by congruence. subst pf2. assert (F2 := proj2 (c38_names_distinct _ _ _ _ G2)). rewrite A in F2. inversion F2 as [X Y|]. rewrite <- Y in D. cbn in D. injection D as <-. reflexivity.
Qed.
End Build.
Print Assumptions c95_requests.
Print Assumptions c95_includes.
Print Assumptions c95_compiled.
Print Assumptions c95_listed.
Print Assumptions c95_bindings.
Print Assumptions c95_rust_files.
Print Assumptions c95_no_macros.
Print Assumptions c95_bridge_only.

Definition case_convert (force : bool) (r : request) (c : config) : outcome conversion :=
  Done (Conversion (if force then "wrapped" else "plain") (if force then Some (CppPair "h" (Some "i") "autocxxgen.h") else Some (CppPair "h" None "autocxxgen.h")) "cxxgen.h").
Definition case_gen (a : option string) (md items : string) : outcome (string * string) :=
  Done (md +++ ":" +++ match a with Some x => x | None => "" end, items).
Definition case_build := build_listing_files (fun _ => "h") false "" case_convert case_gen (fun _ s => s) (fun m i => m +++ " " +++ i) "cxx" (fun id => "in " +++ id) (fun k => "cxxgen" +++ dec (S k) +++ ".h").
Definition case_env : env := Env None None None (Some "/out").

(** The directories given to the builder are only passed on to the C++ compiler with a block: if the file has only [cxx::bridge] modules, which are generated and compiled too, the
    compiler is given no directory at all, not even the one with cxx.h and the generated headers. *)
Theorem c95_bridge_only_refuted :
  exists e items incs ws t, incs <> [] /\ case_build e (new_builder items incs) = (ws, BuildOk t) /\ bt_files t <> [] /\ bt_includes t = [].
Proof. exists case_env, [IMod true "bridge" None], ["include"]. eexists _, _. split; [discriminate|]. split; [vm_compute; reflexivity|]. split; [discriminate|reflexivity]. Qed.
Print Assumptions c95_bridge_only_refuted.

(** A block with [parse_only!], which parsing and generation accept, makes the build panic rather than end with an error, whatever else is in the file. *)
Theorem c95_parse_only_refuted :
  exists items, (exists pf, parse_file_contents (fun _ s => s) false items = POk pf /\ List.length (get_autocxxes pf) = 2)
    /\ forall incs, snd (case_build case_env (new_builder items incs)) = BuildPanics.
Proof.
  exists [IMacro "include_cpp" [TIdent "generate_all"; TBang; TGroup []];
          IMacro "include_cpp" [TIdent "name"; TBang; TGroup [TIdent "x"]; TIdent "parse_only"; TBang; TGroup []]].
  split; [eexists; split; vm_compute; reflexivity|]. intros incs. vm_compute. reflexivity.
Qed.
Print Assumptions c95_parse_only_refuted.

(** Two blocks and a bridge, with options. *)
Definition case_items : list item := blocks_case "x" "y".
Example c95_case :
  exists ws t, case_build case_env (settings [SetGendir "/lost"; SetForce true; SetClangArgs ["-DX"]; SetCpp (fun s _ => (s, Some "A")); SetGendir "/gen"] (new_builder case_items ["inc"]))
      = (ws, BuildOk t)
    /\ List.length ws = 1 + 2 * 7 + 3
    /\ bt_files t = ["/gen/cxx/gen0.cxx"; "/gen/cxx/gen1.cxx"; "/gen/cxx/gen2.cxx"; "/gen/cxx/gen3.cxx"; "/gen/cxx/gen4.cxx"; "/gen/cxx/gen5.cxx"; "/gen/cxx/gen6.cxx"]
    /\ bt_rs t = ["/gen/rs/autocxx-ffi-default-gen.rs"; "/gen/rs/autocxx-x-gen.rs"; "/gen/rs/autocxx-y-gen.rs"]
    /\ In ("/gen/rs/autocxx-x-gen.rs", "x wrapped") ws /\ In ("/gen/cxx/gen2.cxx", "in bridge") ws /\ In ("/gen/include/cxxgen1.h", "bridge:A") ws
    /\ bt_includes t = ["inc"; "/gen/include"; "inc"; "/gen/include"; "inc"; "/gen/include"].
Proof. eexists _, _. split; [vm_compute; reflexivity|]. repeat split; cbn; auto 30. Qed.
