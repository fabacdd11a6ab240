(** C27 (unsafe blocks in generated wrappers), C66 (a wrapper passes each parameter, converted, in its
    place). *)
From Verif Require Import Base ApiModel TypesModel UnqualifyModel ConversionModel SynthNamesModel FnAnalysisModel FnCodegenModel FnAnalysisProofs TypeConverterModel TypeConverterProps FnAnalysisProps.

(** Induction over generated code. *)
Section CodeInd.
Variable P : code -> Prop.
Hypothesis Hvar : forall x, P (KVar x).
Hypothesis Hcpp : forall c, P c -> P (KIntoCpp c).
Hypothesis Hbox : forall h c, P c -> P (KBoxNew h c).
Hypothesis Hun : forall c, P c -> P (KUninitPtr c).
Hypothesis Hmr : forall c, P c -> P (KMoveRefPtr c).
Hypothesis Hgp : forall x, P (KGetPtr x).
Hypothesis Hap : forall m c, P c -> P (KAsPtr m c).
Hypothesis Hh : forall h, P (KHandler h).
Hypothesis Hpn : forall x, P (KPinNew x).
Hypothesis Hpop : forall x c, P c -> P (KPopulate x c).
Hypothesis Hcall : forall f l, Forall P l -> P (KCall f l).
Hypothesis Hfp : forall m c, P c -> P (KFromPtr m c).
Hypothesis Hraw : forall x l, Forall P l -> P (KByRaw x l).
Hypothesis Hlet : forall x c, P c -> P (KLet x c).
Hypothesis Huns : forall l, Forall P l -> P (KUnsafe l).
Fixpoint code_nested_ind (c : code) : P c :=
  let fix all (l : list code) : Forall P l :=
    match l with [] => Forall_nil P | c :: r => Forall_cons c (code_nested_ind c) (all r) end in
  match c with
  | KVar x => Hvar x | KIntoCpp c => Hcpp c (code_nested_ind c) | KBoxNew h c => Hbox h c (code_nested_ind c)
  | KUninitPtr c => Hun c (code_nested_ind c) | KMoveRefPtr c => Hmr c (code_nested_ind c) | KGetPtr x => Hgp x
  | KAsPtr m c => Hap m c (code_nested_ind c) | KHandler h => Hh h | KPinNew x => Hpn x
  | KPopulate x c => Hpop x c (code_nested_ind c) | KCall f l => Hcall f l (all l)
  | KFromPtr m c => Hfp m c (code_nested_ind c) | KByRaw x l => Hraw x l (all l) | KLet x c => Hlet x c (code_nested_ind c)
  | KUnsafe l => Huns l (all l)
  end.
End CodeInd.

(** * C27 *)

(** Rust's rule: [guarded ub b c] says that [c] may be written in an unsafe context ([b = true]) or in a safe
    one. The operations which need unsafe are [Pin::get_unchecked_mut], [Pin::into_inner_unchecked],
    [Pin::new_unchecked], the [populate] of the parameter handlers (src/value_param.rs:263,
    src/rvalue_param.rs:109), moveit's [by_raw], and calls of bridge functions declared unsafe ([ub]). *)
Inductive guarded (ub : bool) : bool -> code -> Prop :=
| gd_var b x : guarded ub b (KVar x)
| gd_into_cpp b c : guarded ub b c -> guarded ub b (KIntoCpp c)
| gd_box b h c : guarded ub b c -> guarded ub b (KBoxNew h c)
| gd_uninit c : guarded ub true c -> guarded ub true (KUninitPtr c)
| gd_move_ref c : guarded ub true c -> guarded ub true (KMoveRefPtr c)
| gd_get_ptr b x : guarded ub b (KGetPtr x)
| gd_as_ptr b m c : guarded ub b c -> guarded ub b (KAsPtr m c)
| gd_handler b h : guarded ub b (KHandler h)
| gd_pin x : guarded ub true (KPinNew x)
| gd_populate x c : guarded ub true c -> guarded ub true (KPopulate x c)
| gd_call b f args : (ub = true -> b = true) -> Forall (guarded ub b) args -> guarded ub b (KCall f args)
| gd_from_ptr b m c : guarded ub b c -> guarded ub b (KFromPtr m c)
| gd_by_raw x body : Forall (guarded ub true) body -> guarded ub true (KByRaw x body)
| gd_let b x c : guarded ub b c -> guarded ub b (KLet x c)
| gd_unsafe b body : Forall (guarded ub true) body -> guarded ub b (KUnsafe body).

Lemma guarded_unsafe ub : forall c b, guarded ub b c -> guarded ub true c.
Proof.
  induction c using code_nested_ind; intros b G; inversion G; subst; constructor; eauto.
  - rewrite Forall_forall in *. intros x I. eauto.
Qed.
Lemma guarded_any ub c b : guarded ub false c -> guarded ub b c.
Proof. destruct b; [apply guarded_unsafe|auto]. Qed.

(** A statement list is well annotated if each statement may stand where it is said it may. *)
Definition well_marked (ub : bool) (i : maybe_unsafe) : Prop :=
  match i with
  | Normal c => guarded ub false c
  | NeedsUnsafe c => guarded ub true c
  | Binary s u => guarded ub false s /\ guarded ub true u
  end.

Lemma Forall_guarded_any ub b l : Forall (guarded ub true) l -> guarded ub b (KUnsafe l).
Proof. intros. constructor. exact H. Qed.
Lemma group_guarded ub items : Forall (well_marked ub) items -> forall cur,
  (match cur with Some l => Forall (guarded ub true) l | None => True end) -> Forall (guarded ub false) (group_unsafe cur items).
Proof.
  assert (FL : forall cur : option (list code), (match cur with Some l => Forall (guarded ub true) l | None => True end) ->
    Forall (guarded ub false) (match cur with Some l => [KUnsafe l] | None => [] end)).
  { intros [l|] F; repeat constructor; auto. }
  induction 1 as [|i r W F IH]; intros cur C; cbn [group_unsafe]; [auto|].
  destruct i as [c|c|s u]; cbn in W.
  - apply Forall_app. split; [auto|]. constructor; [exact W|]. apply IH. exact I.
  - apply IH. destruct cur as [l|]; [apply Forall_app; split; auto|auto].
  - apply Forall_app. split; [auto|]. constructor; [tauto|]. apply IH. exact I.
Qed.

(** C27, for the function which writes statements: whatever the statements, what is written is accepted
    in the context it is written for. *)
Theorem c27_statements_guarded : forall ub items already,
  Forall (well_marked ub) items -> Forall (guarded ub already) (maybe_unsafes_to_tokens items already).
Proof.
  intros ub items already W. unfold maybe_unsafes_to_tokens. destruct already; [|apply group_guarded; auto].
  apply Forall_forall. intros c I. apply in_map_iff in I as (i & <- & I). rewrite Forall_forall in W. specialize (W i I).
  destruct i as [c|c|s u]; cbn in W; [apply guarded_unsafe with false|..]; tauto.
Qed.
Print Assumptions c27_statements_guarded.

(** How a list of statements is written in a safe context: safe statements stand alone, and each maximal
    run of unsafe ones is put in one block. Order is kept, nothing is lost or added. *)
Inductive written : list maybe_unsafe -> list code -> Prop :=
| wr_nil : written [] []
| wr_normal c r out : written r out -> written (Normal c :: r) (c :: out)
| wr_binary s u r out : written r out -> written (Binary s u :: r) (s :: out)
| wr_unsafe run r out : run <> [] -> (forall c r', r <> NeedsUnsafe c :: r') -> written r out ->
    written (map NeedsUnsafe run ++ r) (KUnsafe run :: out).

Lemma group_written items : forall cur, (match cur with
   | None => written items (group_unsafe None items)
   | Some l => l <> [] -> written (map NeedsUnsafe l ++ items) (group_unsafe (Some l) items)
   end).
Proof.
  induction items as [|i r IH]; intros [l|]; cbn [group_unsafe].
  - intros N. apply wr_unsafe; [exact N|discriminate|constructor].
  - constructor.
  - intros N. destruct i as [c|c|s u]; cbn [app].
    + apply (wr_unsafe l (Normal c :: r)); [exact N|discriminate|]. constructor. apply (IH None).
    + specialize (IH (Some (l ++ [c]))). cbv beta iota in IH. rewrite map_app in IH. cbn [map] in IH. rewrite <- app_assoc in IH. apply IH. destruct l; discriminate.
    + apply (wr_unsafe l (Binary s u :: r)); [exact N|discriminate|]. constructor. apply (IH None).
  - destruct i as [c|c|s u]; cbn [app].
    + constructor. apply (IH None).
    + apply (IH (Some [c])). discriminate.
    + constructor. apply (IH None).
Qed.
Theorem c27_order_kept : forall items, written items (maybe_unsafes_to_tokens items false) /\
  maybe_unsafes_to_tokens items true = map (fun i => match i with Normal c | NeedsUnsafe c => c | Binary _ u => u end) items.
Proof. intros items. split; [apply (group_written items None)|]. cbn. apply map_ext. intros [c|c|s u]; reflexivity. Qed.
Print Assumptions c27_order_kept.

(** What one parameter contributes. *)
Lemma conversion_marked ub p c k k' t locals a u : rust_conversion p c k = Some (k', RParam t locals a u) -> guarded ub false c ->
  Forall (well_marked ub) locals /\ guarded ub u a.
Proof.
  intros H G. assert (GT := guarded_any ub c true G). unfold rust_conversion in H.
  destruct (pol_rust p); try destruct (pol_type p); try discriminate; injection H as <- <- <- <- <-; (split; [repeat constructor; auto|repeat constructor; auto]).
Qed.

Definition all_marked (ub : bool) (pa : parts) : Prop :=
  Forall (well_marked ub) (pa_locals pa) /\ Forall (guarded ub (pa_unsafe pa)) (pa_args pa) /\
  (match pa_ptr pa with Some c => guarded ub (pa_unsafe pa) c | None => True end).
Lemma param_parts_marked ub avoid : forall ds acc pa, param_parts avoid ds acc = Some pa -> all_marked ub acc -> all_marked ub pa.
Proof.
  assert (WK : forall b b' l, Forall (guarded ub b) l -> (b = true -> b' = true) -> Forall (guarded ub b') l).
  { intros b b' l F H. apply Forall_impl with (2 := F). intros a G. destruct b; [rewrite (H eq_refl); exact G|apply guarded_any, G]. }
  induction ds as [|d ds IH]; intros acc pa H (A1 & A2 & A3); cbn [param_parts] in H; [injection H as <-; repeat split; auto|].
  match type of H with context [rust_conversion ?p ?c ?k] => destruct (rust_conversion p c k) as [[k' [t locals a u|t]]|] eqn:R end; [| |discriminate].
  - destruct (conversion_marked ub _ _ _ _ _ _ _ _ R (gd_var ub false _)) as (L & G). apply IH in H; [exact H|]. split; [|split]; cbn.
    + apply Forall_app. auto.
    + apply Forall_app. split; [apply (WK (pa_unsafe acc)); [exact A2|intros ->; apply orb_true_r]|].
      constructor; [|constructor]. destruct u; [exact G|]. apply guarded_any, G.
    + destruct (a_placement d); [destruct u; [exact G|apply guarded_any, G]|]. destruct (pa_ptr acc) as [c|]; [|exact I].
      destruct (pa_unsafe acc); [rewrite orb_true_r; exact A3|apply guarded_any, A3].
  - apply IH in H; [exact H|]. split; [|split]; cbn; [exact A1| |constructor].
    apply Forall_app. split; [exact A2|repeat constructor].
Qed.

(** C27 for wrapper functions: the body is accepted in the context given by the wrapper's own [unsafe], where
    the bridge function is unsafe if its declaration says so. *)
Lemma common_parts_guarded np fa avoid order rt sg body : common_parts np fa avoid order rt = Some (sg, body) ->
  Forall (guarded (bridge_token (fa_unsafe fa)) (wrapper_token (fa_unsafe fa))) body.
Proof.
  set (ub := bridge_token (fa_unsafe fa)). intros H. unfold common_parts in H.
  destruct (param_parts avoid (fa_details fa) (Parts [] [] [] None rt false 0)) as [pa|] eqn:PA; [|discriminate].
  apply (param_parts_marked ub) in PA as (A1 & A2 & A3); [|split; [constructor|split; [constructor|exact I]]].
  destruct (match order with Some o => reorder (pa_params pa) o | None => Some (pa_params pa) end) as [wps|]; [|discriminate].
  destruct (add_explicit_lifetime_if_necessary np (fa_details fa) true wps (pa_ret pa) (fa_ret_conv fa)) as [s|]; [|discriminate].
  cbv zeta in H.
  set (ctx := match fa_unsafe fa with UAlways => true | _ => false end) in *.
  change (wrapper_token (fa_unsafe fa)) with ctx.
  set (call_body := if pa_unsafe pa || match fa_unsafe fa with UJustBridge => true | _ => false end
               then NeedsUnsafe (KCall (fa_bridge fa) (pa_args pa)) else Normal (KCall (fa_bridge fa) (pa_args pa))) in *.
  (* in the context, the call may be written *)
  assert (CB : Forall (guarded ub ctx) (maybe_unsafes_to_tokens [call_body] ctx)).
  { destruct ctx eqn:EC.
    - cbn. assert (X : guarded ub true (KCall (fa_bridge fa) (pa_args pa))).
      { constructor; [auto|]. apply Forall_impl with (2 := A2). intros a. apply guarded_unsafe. }
      unfold call_body. destruct (pa_unsafe pa || _); (constructor; [exact X|constructor]).
    - apply c27_statements_guarded. constructor; [|constructor]. unfold call_body.
      destruct (pa_unsafe pa) eqn:PU; cbn [orb well_marked].
      + constructor; [auto|exact A2].
      + assert (UB : match fa_unsafe fa with UJustBridge => true | _ => false end = ub).
        { unfold ub. destruct (fa_unsafe fa); try reflexivity. discriminate EC. }
        rewrite UB. destruct ub; cbn.
        * constructor; [auto|]. apply Forall_impl with (2 := A2). intros a. apply guarded_any.
        * constructor; [discriminate|exact A2]. }
  (* and so may the converted result *)
  match type of H with match ?conv with _ => _ end = _ => destruct conv as [[cb rty']|] eqn:CONV; [|discriminate] end.
  assert (CB2 : forall pre, Forall (well_marked ub) pre -> Forall (guarded ub ctx) (maybe_unsafes_to_tokens (pre ++ [cb]) ctx)).
  { destruct ctx eqn:EC.
    - intros pre WP. cbn. rewrite map_app. apply Forall_app. split.
      + apply (c27_statements_guarded ub pre true WP).
      + destruct (fa_ret_conv fa) as [rc|]; [destruct (rust_work_needed rc)|].
        * cbn in CONV. match type of CONV with context [rust_conversion ?p ?c ?k] => destruct (rust_conversion p c k) as [[k' [t [|l0 locals] a u|t]]|] eqn:R end; try discriminate.
          inversion CB as [|x l X _]; subst.
          assert (G : guarded ub true a).
          { unfold rust_conversion in R. destruct (pol_rust rc); try destruct (pol_type rc); try discriminate; injection R as <- <- <- <-; first [exact X|constructor; exact X|constructor; constructor; exact X]. }
          destruct u; injection CONV as <- <-; (constructor; [exact G|constructor]).
        * injection CONV as <- <-. exact CB.
        * injection CONV as <- <-. exact CB.
    - intros pre WP. apply c27_statements_guarded. apply Forall_app. split; [exact WP|]. constructor; [|constructor].
      assert (W0 : well_marked ub call_body).
      { unfold call_body in CB |- *. destruct (pa_unsafe pa || _); cbn in CB |- *; inversion CB as [|x l X _]; subst; [inversion X as [| | | | | | | | | | | | | |b bd F]; subst; inversion F; assumption|exact X]. }
      destruct (fa_ret_conv fa) as [rc|]; [destruct (rust_work_needed rc)|]; [|injection CONV as <- <-; exact W0|injection CONV as <- <-; exact W0].
      match type of CONV with context [maybe_unsafes_to_tokens ?l ?b] => destruct (maybe_unsafes_to_tokens l b) as [|expr [|e2 l2]] eqn:MT end; try discriminate.
      inversion CB as [|x l X _]; subst.
      match type of CONV with context [rust_conversion ?p ?c ?k] => destruct (rust_conversion p c k) as [[k' [t [|l0 locals] a u|t]]|] eqn:R end; try discriminate.
      destruct (conversion_marked ub _ _ _ _ _ _ _ _ R X) as (_ & G). destruct u; injection CONV as <- <-; exact G. }
  destruct (pa_ptr pa) as [ptr|].
  - destruct ptr as [x| | | | | | | | | | | | | | ]; try discriminate. injection H as <- <-.
    apply c27_statements_guarded. constructor; [|constructor]. cbn [well_marked]. constructor.
    assert (X : Forall (guarded ub true) (maybe_unsafes_to_tokens (pa_locals pa ++ [Binary (KLet x (KUnsafe [KUninitPtr (KVar x)])) (KLet x (KUninitPtr (KVar x)))]) true)).
    { apply c27_statements_guarded. apply Forall_app. split; [exact A1|]. repeat constructor. }
    change [Binary (KLet x (KUnsafe [KUninitPtr (KVar x)])) (KLet x (KUninitPtr (KVar x))); cb]
      with ([Binary (KLet x (KUnsafe [KUninitPtr (KVar x)])) (KLet x (KUninitPtr (KVar x)))] ++ [cb]).
    rewrite app_assoc. cbn [maybe_unsafes_to_tokens] in *. rewrite map_app. apply Forall_app. split; [exact X|].
    specialize (CB2 [] (Forall_nil _)). cbn [app] in CB2. destruct cb as [c|c|c1 c2]; repeat constructor; destruct ctx; cbn in CB2; inversion CB2 as [|y l Y _]; subst;
      try exact Y; try (apply guarded_any; exact Y).
    + inversion Y as [| | | | | | | | | | | | | |b bd F]; subst; inversion F; assumption.
    + exfalso. clear - CONV. destruct (fa_ret_conv fa) as [rc|]; [destruct (rust_work_needed rc)|].
      * unfold call_body in CONV. cbn in CONV. destruct (pa_unsafe pa || _); cbn in CONV;
        match type of CONV with context [rust_conversion ?p ?c ?k] => destruct (rust_conversion p c k) as [[k' [t [|l0 locals] a [|]|t]]|] end; discriminate.
      * injection CONV as E _. unfold call_body in E. destruct (pa_unsafe pa || _); discriminate.
      * injection CONV as E _. unfold call_body in E. destruct (pa_unsafe pa || _); discriminate.
  - injection H as <- <-. apply CB2. exact A1.
Qed.

Theorem c27_wrapper_guarded : forall np fa o b w, gen_function np fa = Some o -> o_bridge o = Some b -> o_wrapper o = Some w ->
  Forall (guarded (rf_unsafe b) (rf_unsafe w)) (rf_body w).
Proof.
  intros np fa o b w G B W. destruct (gen_inv _ _ _ G) as [->|(bs & _ & _ & _ & OB & OW)]; [discriminate|].
  rewrite OB in B. injection B as <-. destruct (fa_rust_wrapper fa); [|congruence].
  destruct OW as (avoid & order & rt & sg & body & CPT & OW). rewrite OW in W. injection W as <-. cbn.
  eapply common_parts_guarded. exact CPT.
Qed.
Print Assumptions c27_wrapper_guarded.

(** No unsafe block in a safe function is needless: each statement in it would be refused outside, and it is
    not itself inside an unsafe block. *)
Inductive lean (ub : bool) : bool -> code -> Prop :=
| ln_var b x : lean ub b (KVar x)
| ln_into_cpp b c : lean ub b c -> lean ub b (KIntoCpp c)
| ln_box b h c : lean ub b c -> lean ub b (KBoxNew h c)
| ln_uninit b c : lean ub b c -> lean ub b (KUninitPtr c)
| ln_move_ref b c : lean ub b c -> lean ub b (KMoveRefPtr c)
| ln_get_ptr b x : lean ub b (KGetPtr x)
| ln_as_ptr b m c : lean ub b c -> lean ub b (KAsPtr m c)
| ln_handler b h : lean ub b (KHandler h)
| ln_pin b x : lean ub b (KPinNew x)
| ln_populate b x c : lean ub b c -> lean ub b (KPopulate x c)
| ln_call b f args : Forall (lean ub b) args -> lean ub b (KCall f args)
| ln_from_ptr b m c : lean ub b c -> lean ub b (KFromPtr m c)
| ln_by_raw b x body : Forall (lean ub b) body -> lean ub b (KByRaw x body)
| ln_let b x c : lean ub b c -> lean ub b (KLet x c)
| ln_unsafe body : body <> [] -> Forall (fun c => ~ guarded ub false c /\ lean ub true c) body -> lean ub false (KUnsafe body).

Definition lean_marked (ub : bool) (i : maybe_unsafe) : Prop :=
  match i with
  | Normal c => lean ub false c /\ lean ub true c
  | NeedsUnsafe c => ~ guarded ub false c /\ lean ub true c
  | Binary s u => lean ub false s /\ lean ub true u
  end.
Lemma group_lean ub items : Forall (lean_marked ub) items -> forall cur,
  (match cur with Some l => l <> [] /\ Forall (fun c => ~ guarded ub false c /\ lean ub true c) l | None => True end) ->
  Forall (lean ub false) (group_unsafe cur items).
Proof.
  assert (FL : forall cur : option (list code), (match cur with Some l => l <> [] /\ Forall (fun c => ~ guarded ub false c /\ lean ub true c) l | None => True end) ->
    Forall (lean ub false) (match cur with Some l => [KUnsafe l] | None => [] end)).
  { intros [l|] F; [|constructor]. destruct F. constructor; constructor; auto. }
  induction 1 as [|i r W F IH]; intros cur C; cbn [group_unsafe]; [auto|].
  destruct i as [c|c|s u]; cbn in W.
  - apply Forall_app. split; [auto|]. constructor; [tauto|]. apply IH. exact I.
  - apply IH. destruct cur as [l|]; [destruct C as [C1 C2]; split; [destruct l; discriminate|apply Forall_app; split; auto]|].
    split; [discriminate|auto].
  - apply Forall_app. split; [auto|]. constructor; [tauto|]. apply IH. exact I.
Qed.
Theorem c27_statements_lean : forall ub items already,
  Forall (lean_marked ub) items -> Forall (lean ub already) (maybe_unsafes_to_tokens items already).
Proof.
  intros ub items already W. unfold maybe_unsafes_to_tokens. destruct already; [|apply group_lean; auto].
  apply Forall_forall. intros c I. apply in_map_iff in I as (i & <- & I). rewrite Forall_forall in W. specialize (W i I).
  destruct i as [c|c|s u]; cbn in W; tauto.
Qed.
Print Assumptions c27_statements_lean.

Lemma conversion_lean ub p x k k' t locals a u : rust_conversion p (KVar x) k = Some (k', RParam t locals a u) ->
  Forall (lean_marked ub) locals /\ lean ub false a /\ lean ub true a /\ (u = true -> ~ guarded ub false a).
Proof.
  intros H. unfold rust_conversion in H.
  destruct (pol_rust p); try destruct (pol_type p); try discriminate; injection H as <- <- <- <- <-;
    (split; [|split; [repeat constructor|split; [repeat constructor|try discriminate; intros _ G; inversion G]]]); try constructor;
    try (split; repeat constructor).
  all: constructor; [split; [constructor; constructor; [discriminate|constructor; [split; [intros G; inversion G|constructor]|constructor]]|repeat constructor]|].
  all: constructor; [split; [intros G; inversion G|repeat constructor]|constructor].
Qed.
Definition all_lean (ub : bool) (pa : parts) : Prop :=
  Forall (lean_marked ub) (pa_locals pa) /\ Forall (lean ub false) (pa_args pa) /\ Forall (lean ub true) (pa_args pa) /\
  (pa_unsafe pa = true -> Exists (fun c => ~ guarded ub false c) (pa_args pa)).
Lemma param_parts_lean ub avoid : forall ds acc pa, param_parts avoid ds acc = Some pa -> all_lean ub acc -> all_lean ub pa.
Proof.
  induction ds as [|d ds IH]; intros acc pa H (A1 & A2 & A3 & A4); cbn [param_parts] in H; [injection H as <-; repeat split; auto|].
  match type of H with context [rust_conversion ?p ?c ?k] => destruct (rust_conversion p c k) as [[k' [t locals a u|t]]|] eqn:R end; [| |discriminate].
  - destruct (conversion_lean ub _ _ _ _ _ _ _ _ R) as (L & G1 & G2 & G3). apply IH in H; [exact H|]. repeat split; cbn.
    + apply Forall_app; auto.
    + apply Forall_app; auto.
    + apply Forall_app; auto.
    + intros U. apply Exists_app. destruct u; [right; left; auto|left; auto].
  - apply IH in H; [exact H|]. repeat split; cbn; [exact A1| | |].
    + apply Forall_app. split; [exact A2|repeat constructor].
    + apply Forall_app. split; [exact A3|repeat constructor].
    + intros U. apply Exists_app. auto.
Qed.
Lemma param_parts_ptr avoid : forall ds acc pa, param_parts avoid ds acc = Some pa -> pa_ptr acc = None ->
  (forall d, In d ds -> a_placement d = false /\ pol_rust (a_conv d) <> RcFromPlacementParamToNewReturn) -> pa_ptr pa = None.
Proof.
  induction ds as [|d ds IH]; intros acc pa H A ND; cbn [param_parts] in H; [injection H as <-; exact A|].
  destruct (ND d (or_introl eq_refl)) as [PL NR].
  match type of H with context [rust_conversion ?p ?c ?k] => destruct (rust_conversion p c k) as [[k' [t locals a u|t]]|] eqn:R end; [| |discriminate].
  - rewrite PL in H. apply IH in H; auto. intros d' I. apply ND. right. exact I.
  - exfalso. unfold rust_conversion in R. destruct (pol_rust (a_conv d)); try destruct (pol_type (a_conv d)); discriminate || congruence.
Qed.

(** A result conversion never occurs together with a result written through a pointer, and needs no unsafe. *)
Definition simple_result (fa : fn_analysis) : Prop :=
  forall rc, fa_ret_conv fa = Some rc -> rust_work_needed rc = true ->
    pol_rust rc <> RcFromPinMaybeUninitToPtr /\ pol_rust rc <> RcFromPinMoveRefToPtr /\
    forall d, In d (fa_details fa) -> a_placement d = false /\ pol_rust (a_conv d) <> RcFromPlacementParamToNewReturn.

Theorem c27_wrapper_lean : forall np fa o b w, gen_function np fa = Some o -> o_bridge o = Some b -> o_wrapper o = Some w ->
  simple_result fa -> rf_unsafe w = false -> Forall (lean (rf_unsafe b) false) (rf_body w).
Proof.
  intros np fa o b w G B W SR RU. destruct (gen_inv _ _ _ G) as [->|(bs & _ & _ & _ & OB & OW)]; [discriminate|].
  rewrite OB in B. injection B as <-. destruct (fa_rust_wrapper fa); [|congruence].
  destruct OW as (avoid & order & rt & sg & body & H & OW). rewrite OW in W. injection W as <-. cbn in *.
  set (ub := bridge_token (fa_unsafe fa)). unfold common_parts in H.
  destruct (param_parts avoid (fa_details fa) (Parts [] [] [] None rt false 0)) as [pa|] eqn:PA; [|discriminate].
  assert (PTR := param_parts_ptr _ _ _ _ PA eq_refl).
  apply (param_parts_lean ub) in PA as (A1 & A2 & A3 & A4); [|repeat split; try constructor; discriminate].
  destruct (match order with Some o => reorder (pa_params pa) o | None => Some (pa_params pa) end) as [wps|]; [|discriminate].
  destruct (add_explicit_lifetime_if_necessary np (fa_details fa) true wps (pa_ret pa) (fa_ret_conv fa)) as [s|]; [|discriminate].
  cbv zeta in H.
  assert (CTX : match fa_unsafe fa with UAlways => true | _ => false end = false) by (destruct (fa_unsafe fa); [reflexivity|reflexivity|discriminate]).
  rewrite CTX in H.
  set (call_body := if pa_unsafe pa || match fa_unsafe fa with UJustBridge => true | _ => false end
               then NeedsUnsafe (KCall (fa_bridge fa) (pa_args pa)) else Normal (KCall (fa_bridge fa) (pa_args pa))) in *.
  assert (CB : lean_marked ub call_body).
  { unfold call_body. destruct (pa_unsafe pa || _) eqn:U; cbn; (split; [|constructor; assumption]).
    - intros GD. inversion GD as [| | | | | | | | | |b f args UB F| | | |]; subst. apply orb_true_iff in U as [U|U].
      + apply A4 in U. apply Exists_exists in U as (c & I & N). rewrite Forall_forall in F. apply N, F, I.
      + unfold ub in UB. destruct (fa_unsafe fa); try discriminate. discriminate (UB eq_refl).
    - constructor. assumption. }
  match type of H with match ?conv with _ => _ end = _ => destruct conv as [[cb rty']|] eqn:CONV; [|discriminate] end.
  assert (CB2 : (lean_marked ub cb) \/ (pa_ptr pa = None /\ Forall (lean ub false) (maybe_unsafes_to_tokens [cb] false) /\ exists c, cb = Normal c)).
  { destruct (fa_ret_conv fa) as [rc|] eqn:RC; [destruct (rust_work_needed rc) eqn:RW|]; [|left; injection CONV as <- <-; exact CB|left; injection CONV as <- <-; exact CB].
    right. destruct (SR rc RC RW) as (N1 & N2 & N3). split; [apply PTR; exact N3|].
    assert (T := c27_statements_lean ub [call_body] false (Forall_cons _ CB (Forall_nil _))).
    match type of CONV with context [maybe_unsafes_to_tokens ?l ?b] => destruct (maybe_unsafes_to_tokens l b) as [|expr [|e2 l2]] eqn:MT end; try discriminate.
    inversion T as [|x l X _]; subst.
    match type of CONV with context [rust_conversion ?p ?c ?k] => destruct (rust_conversion p c k) as [[k' [t [|l0 locals] a u|t]]|] eqn:R end; try discriminate.
    assert (Y : lean ub false a /\ u = false).
    { unfold rust_conversion in R. destruct (pol_rust rc); try congruence; try destruct (pol_type rc); try discriminate; injection R as <- <- <- <-;
        split; try reflexivity; first [exact X|constructor; exact X|constructor; constructor; exact X]. }
    destruct Y as [Y ->]. injection CONV as <- <-. split; [cbn; constructor; [exact Y|constructor]|eauto]. }
  destruct CB2 as [CB2|(PN & CB2 & c & ->)].
  - destruct (pa_ptr pa) as [ptr|].
    + destruct ptr as [x| | | | | | | | | | | | | | ]; try discriminate. injection H as <- <-.
      refine (c27_statements_lean ub [NeedsUnsafe (KByRaw x _)] false _). constructor; [|constructor]. cbn [lean_marked]. split; [intros GD; inversion GD|]. constructor.
      apply (c27_statements_lean ub _ true). apply Forall_app. split; [exact A1|]. constructor; [|constructor; [exact CB2|constructor]].
      split; [constructor; constructor; [discriminate|constructor; [split; [intros GD; inversion GD|repeat constructor]|constructor]]|repeat constructor].
    + injection H as <- <-. apply (c27_statements_lean ub _ false). apply Forall_app. split; [exact A1|]. constructor; [exact CB2|constructor].
  - rewrite PN in H. injection H as <- <-. unfold maybe_unsafes_to_tokens in *. cbn in CB2.
    assert (X : forall items cur, (match cur with Some l => l <> [] /\ Forall (fun c => ~ guarded ub false c /\ lean ub true c) l | None => True end) ->
       Forall (lean_marked ub) items -> Forall (lean ub false) (group_unsafe cur (items ++ [Normal c]))).
    { clear - CB2. induction items as [|i r IH]; intros cur C F.
      - cbn. apply Forall_app. split; [|exact CB2]. destruct cur as [l|]; [|constructor]. destruct C. repeat constructor; auto.
      - inversion F as [|i0 r0 W F']; subst. cbn [app group_unsafe].
        assert (FL : Forall (lean ub false) (match cur with Some l => [KUnsafe l] | None => [] end)).
        { destruct cur as [l|]; [|constructor]. destruct C. constructor; constructor; auto. }
        destruct i as [c0|c0|s u]; cbn in W.
        + apply Forall_app. split; [auto|]. constructor; [tauto|]. apply IH; [exact I|exact F'].
        + apply IH; [|exact F']. destruct cur as [l|]; [destruct C as [C1 C2]; split; [destruct l; discriminate|apply Forall_app; split; auto]|].
          split; [discriminate|auto].
        + apply Forall_app. split; [auto|]. constructor; [tauto|]. apply IH; [exact I|exact F']. }
    apply (X (pa_locals pa) None I A1).
Qed.
Print Assumptions c27_wrapper_lean.

(** * C66: a wrapper passes each parameter, converted, in its place *)

(** What generated code computes, symbolically: [VArg x] is what the caller gave for the parameter [x], [VDest] is
    the place where a [New] is to put its result. *)
Inductive value :=
| VUnit | VArg (x : string) | VDest
| VIntoCpp (v : value) | VBox (holder : string) (v : value) | VUninitPtr (v : value) | VMoveRefPtr (v : value)
| VHandler (handler : string) (filled : option value) | VPtrOf (v : value) | VAsPtr (mut : bool) (v : value)
| VCall (f : string) (args : list value) | VFromPtr (mut : bool) (v : value) | VNew (v : value).
Definition venv := list (string * value).
Fixpoint look (e : venv) (x : string) : option value :=
  match e with [] => None | (y, v) :: r => if String.eqb x y then Some v else look r x end.
Fixpoint assign (e : venv) (x : string) (v : value) : venv :=
  match e with [] => [] | (y, w) :: r => if String.eqb x y then (y, v) :: r else (y, w) :: assign r x v end.

(** Evaluation. A [let] shadows; [populate] fills the handler a variable holds; a block yields its last
    expression. A [let] inside an unsafe block would go out of scope at its end: it is not given a meaning
    ([lets = false]), so that code relying on it is stuck. *)
Fixpoint eval (lets : bool) (e : venv) (c : code) {struct c} : option (venv * value) :=
  let fix seq (lets : bool) (e : venv) (l : list code) {struct l} : option (venv * value) :=
    match l with
    | [] => Some (e, VUnit)
    | c :: r => match eval lets e c with
                | Some (e', v) => match r with [] => Some (e', v) | _ => seq lets e' r end
                | None => None
                end
    end in
  let fix args (e : venv) (l : list code) {struct l} : option (venv * list value) :=
    match l with
    | [] => Some (e, [])
    | c :: r => match eval false e c with
                | Some (e', v) => match args e' r with Some (e2, vs) => Some (e2, v :: vs) | None => None end
                | None => None
                end
    end in
  let one (f : value -> value) (c : code) := match eval false e c with Some (e', v) => Some (e', f v) | None => None end in
  match c with
  | KVar x => match look e x with Some v => Some (e, v) | None => None end
  | KIntoCpp c => one VIntoCpp c
  | KBoxNew h c => one (VBox h) c
  | KUninitPtr c => one VUninitPtr c
  | KMoveRefPtr c => one VMoveRefPtr c
  | KGetPtr x => match look e x with Some v => Some (e, VPtrOf v) | None => None end
  | KAsPtr m c => one (VAsPtr m) c
  | KHandler h => Some (e, VHandler h None)
  | KPinNew x => match look e x with Some v => Some (e, v) | None => None end
  | KPopulate x c =>
      match eval false e c with
      | Some (e', v) => match look e' x with
                        | Some (VHandler h None) => Some (assign e' x (VHandler h (Some v)), VUnit)
                        | _ => None
                        end
      | None => None
      end
  | KCall f l => match args e l with Some (e', vs) => Some (e', VCall f vs) | None => None end
  | KFromPtr m c => one (VFromPtr m) c
  | KByRaw x body => match seq true ((x, VDest) :: e) body with Some (_, v) => Some (e, VNew v) | None => None end
  | KLet x c => if lets then match eval false e c with Some (e', v) => Some ((x, v) :: e', VUnit) | None => None end else None
  | KUnsafe body => seq false e body
  end.
Fixpoint exec (lets : bool) (e : venv) (l : list code) {struct l} : option (venv * value) :=
  match l with
  | [] => Some (e, VUnit)
  | c :: r => match eval lets e c with
              | Some (e', v) => match r with [] => Some (e', v) | _ => exec lets e' r end
              | None => None
              end
  end.
Fixpoint eval_args (e : venv) (l : list code) {struct l} : option (venv * list value) :=
  match l with
  | [] => Some (e, [])
  | c :: r => match eval false e c with
              | Some (e', v) => match eval_args e' r with Some (e2, vs) => Some (e2, v :: vs) | None => None end
              | None => None
              end
  end.

Lemma eval_block lets e body : eval lets e (KUnsafe body) = exec false e body.
Proof.
  cbn. revert e. induction body as [|c r IH]; intros e; [reflexivity|]. cbn. destruct (eval false e c) as [[e' v]|]; [|reflexivity].
  destruct r; [reflexivity|]. apply IH.
Qed.
Lemma eval_by_raw lets e x body : eval lets e (KByRaw x body) =
  match exec true ((x, VDest) :: e) body with Some (_, v) => Some (e, VNew v) | None => None end.
Proof.
  cbn. generalize ((x, VDest) :: e) as e0. intros e0. match goal with |- match ?a with _ => _ end = match ?b with _ => _ end => assert (E : a = b); [|rewrite E; reflexivity] end.
  revert e0. induction body as [|c r IH]; intros e0; [reflexivity|]. cbn. destruct (eval true e0 c) as [[e' v]|]; [|reflexivity].
  destruct r; [reflexivity|]. apply IH.
Qed.
Lemma eval_call lets e f l : eval lets e (KCall f l) = match eval_args e l with Some (e', vs) => Some (e', VCall f vs) | None => None end.
Proof.
  cbn. match goal with |- match ?a with _ => _ end = match ?b with _ => _ end => assert (E : a = b); [|rewrite E; reflexivity] end.
  revert e. induction l as [|c r IH]; intros e; [reflexivity|]. cbn. destruct (eval false e c) as [[e' v]|]; [|reflexivity].
  rewrite IH. reflexivity.
Qed.
Lemma exec_app lets : forall l1 e l2 , l2 <> [] ->
  exec lets e (l1 ++ l2) = match exec lets e l1 with Some (e', _) => exec lets e' l2 | None => None end.
Proof.
  induction l1 as [|c r IH]; intros e l2 N; [reflexivity|]. cbn. destruct (eval lets e c) as [[e' v]|]; [|reflexivity].
  destruct r as [|c2 r]; cbn [app].
  - destruct l2; [congruence|reflexivity].
  - apply (IH e' l2 N).
Qed.

(** What the wrapper should pass for a parameter. *)
Definition var_of (avoid : bool) (d : arg) : string :=
  if (match a_self d with Some _ => true | None => false end) && negb avoid then "self" else a_name d.
Definition is_destination (d : arg) : bool :=
  a_placement d || match pol_rust (a_conv d) with RcFromPlacementParamToNewReturn => true | _ => false end.
Definition pointer_mut (p : policy) : bool := match pol_type p with TPtr m _ => m | _ => false end.
Definition convert (p : policy) (v : value) : value :=
  match pol_rust p with
  | RcNone | RcFromTypeToPtr | RcFromPlacementParamToNewReturn => v
  | RcFromStr => VIntoCpp v
  | RcToBoxedUpHolder sub => VBox (sc_holder sub) v
  | RcFromPinMaybeUninitToPtr => VUninitPtr v
  | RcFromPinMoveRefToPtr => VMoveRefPtr v
  | RcFromValueParamToPtr => VPtrOf (VHandler "ValueParamHandler" (Some v))
  | RcFromRValueParamToPtr => VPtrOf (VHandler "RValueParamHandler" (Some v))
  | RcFromPointerToReferenceWrapper => VFromPtr (pointer_mut p) v
  | RcFromReferenceWrapperToPointer => VAsPtr (pointer_mut p) v
  end.
Definition passed (avoid : bool) (d : arg) : value :=
  if is_destination d then VUninitPtr VDest else convert (a_conv d) (VArg (var_of avoid d)).
(** What the wrapper should return. *)
Definition returned (avoid : bool) (fa : fn_analysis) : value :=
  let call := VCall (fa_bridge fa) (map (passed avoid) (fa_details fa)) in
  let result := match fa_ret_conv fa with Some rc => convert rc call | None => call end in
  if existsb is_destination (fa_details fa) then VNew result else result.

Definition unsafe_form (i : maybe_unsafe) : code := match i with Normal c | NeedsUnsafe c | Binary _ c => c end.
Definition fair (i : maybe_unsafe) : Prop :=
  match i with
  | Normal _ => True
  | NeedsUnsafe c => forall e, eval true e c = eval false e c
  | Binary s u => forall e, eval true e s = eval true e u
  end.

Lemma exec_false l : Forall (fun c => forall e, eval true e c = eval false e c) l -> forall e, exec false e l = exec true e l.
Proof.
  induction 1 as [|c r H F IH]; intros e; [reflexivity|]. cbn. rewrite H. destruct (eval false e c) as [[e' v]|]; [|reflexivity].
  destruct r; [reflexivity|]. apply IH.
Qed.
Lemma exec_block e l : exec true e [KUnsafe l] = exec false e l.
Proof. cbn [exec]. rewrite eval_block. destruct (exec false e l) as [[e' v]|]; reflexivity. Qed.
Lemma exec_cons_eq c c' r r' : (forall e, eval true e c = eval true e c') -> (forall e, exec true e r = exec true e r') -> (r = [] <-> r' = []) ->
  forall e, exec true e (c :: r) = exec true e (c' :: r').
Proof.
  intros H1 H2 N e. cbn. rewrite H1. destruct (eval true e c') as [[e' v]|]; [|reflexivity].
  destruct r as [|c1 r1], r' as [|c2 r2]; [reflexivity| | |apply H2].
  - assert (X := proj1 N eq_refl). discriminate.
  - assert (X := proj2 N eq_refl). discriminate.
Qed.
Lemma group_nil items : group_unsafe None items = [] <-> items = [].
Proof.
  assert (G : forall items l, group_unsafe (Some l) items <> []).
  { clear. induction items as [|[c|c|s u] r IH]; intros l; cbn; try discriminate. apply IH. }
  destruct items as [|[c|c|s u] r]; cbn; split; intros H; try discriminate; try reflexivity. destruct (G _ _ H).
Qed.
Lemma group_exec : forall items, Forall fair items -> (forall e, exec true e (group_unsafe None items) = exec true e (map unsafe_form items)) /\
  (forall l, l <> [] -> Forall (fun c => forall e, eval true e c = eval false e c) l ->
     forall e, exec true e (group_unsafe (Some l) items) = exec true e (l ++ map unsafe_form items)).
Proof.
  induction 1 as [|i r W F [IH1 IH2]]; (split; [|intros l N L]); cbn [group_unsafe map].
  - reflexivity.
  - intros e. rewrite app_nil_r, exec_block. apply exec_false, L.
  - assert (NIL : group_unsafe None r = [] <-> map unsafe_form r = []).
    { rewrite group_nil. destruct r; split; intros; try discriminate; reflexivity. }
    destruct i as [c|c|s u]; cbn [unsafe_form app] in *.
    + apply exec_cons_eq; auto.
    + apply (IH2 [c]); [discriminate|]. constructor; [exact W|constructor].
    + apply exec_cons_eq; auto.
  - assert (NIL : group_unsafe None r = [] <-> map unsafe_form r = []).
    { rewrite group_nil. destruct r; split; intros; try discriminate; reflexivity. }
    destruct i as [c|c|s u]; cbn [unsafe_form] in *; intros e.
    + rewrite !exec_app by discriminate. rewrite exec_block, (exec_false l L). destruct (exec true e l) as [[e' v]|]; [|reflexivity].
      apply exec_cons_eq; auto.
    + replace (l ++ c :: map unsafe_form r) with ((l ++ [c]) ++ map unsafe_form r) by (rewrite <- app_assoc; reflexivity).
      apply IH2; [destruct l; discriminate|]. apply Forall_app. split; [exact L|]. constructor; [exact W|constructor].
    + rewrite !exec_app by discriminate. rewrite exec_block, (exec_false l L). destruct (exec true e l) as [[e' v]|]; [|reflexivity].
      apply exec_cons_eq; auto.
Qed.
(** Unsafe blocks do not change what statements do. *)
Theorem c27_blocks_are_transparent : forall items already, Forall fair items ->
  forall e, exec true e (maybe_unsafes_to_tokens items already) = exec true e (map unsafe_form items).
Proof. intros items [|] F e; [reflexivity|]. apply (group_exec items F). Qed.
Print Assumptions c27_blocks_are_transparent.

Lemma space_var_inj i j : space_var i = space_var j -> i = j.
Proof. intros E. apply sapp_inj_l in E. apply dec_inj, E. Qed.
Lemma look_assign e x v y : look e x <> None -> look (assign e x v) y = if String.eqb y x then Some v else look e y.
Proof.
  induction e as [|[z w] r IH]; cbn; [congruence|]. intros H. destruct (String.eqb_spec x z) as [->|N].
  - cbn. destruct (String.eqb y z); reflexivity.
  - cbn. rewrite (IH H). destruct (String.eqb_spec y z) as [->|N2]; [|reflexivity].
    destruct (String.eqb_spec z x) as [->|]; [congruence|reflexivity].
Qed.

(** Environments which agree on what matters: ordinary variables and the handlers so far, except for the
    destination, which holds the destination's address. *)
Definition old (K : nat) (y : string) : Prop := forall j, y = space_var j -> j < K.
Definition agree (dv : option string) (K : nat) (e e2 : venv) : Prop :=
  (forall y, old K y -> dv <> Some y -> look e2 y = look e y) /\
  (forall x, dv = Some x -> look e2 x = Some (VUninitPtr VDest)).

Lemma one_conversion dv p x k k' t locals a u : rust_conversion p (KVar x) k = Some (k', RParam t locals a u) ->
  (forall j, x <> space_var j) -> dv <> Some x -> (forall j, dv <> Some (space_var j)) -> Forall fair locals /\ k <= k' /\
  forall e v, look e x = Some v -> exists e1 w, exec true e (map unsafe_form locals) = Some (e1, w) /\
    (forall y, old k y -> look e1 y = look e y) /\ (forall e2 lets, agree dv k' e1 e2 -> eval lets e2 a = Some (e2, convert p v)).
Proof.
  intros H NS ND DS. unfold rust_conversion in H.
  assert (SIMPLE : forall f, locals = [] -> k' = k -> (forall lets e v, look e x = Some v -> eval lets e a = Some (e, f v)) -> (forall v, convert p v = f v) ->
    Forall fair locals /\ k <= k' /\ forall e v, look e x = Some v -> exists e1 w, exec true e (map unsafe_form locals) = Some (e1, w) /\
    (forall y, old k y -> look e1 y = look e y) /\ (forall e2 lets, agree dv k' e1 e2 -> eval lets e2 a = Some (e2, convert p v))).
  { intros f -> -> EV CV. split; [constructor|]. split; [lia|]. intros e v L. exists e, VUnit. split; [reflexivity|]. split; [reflexivity|].
    intros e2 lets [A _]. rewrite CV. apply EV. rewrite A; [exact L| |exact ND]. intros j E. destruct (NS j E). }
  assert (VALUE : forall h, locals = [Normal (KLet (space_var k) (KHandler h)); Binary (KLet (space_var k) (KUnsafe [KPinNew (space_var k)])) (KLet (space_var k) (KPinNew (space_var k)));
             NeedsUnsafe (KPopulate (space_var k) (KVar x))] -> a = KGetPtr (space_var k) -> k' = S k -> (forall v, convert p v = VPtrOf (VHandler h (Some v))) ->
    Forall fair locals /\ k <= k' /\ forall e v, look e x = Some v -> exists e1 w, exec true e (map unsafe_form locals) = Some (e1, w) /\
    (forall y, old k y -> look e1 y = look e y) /\ (forall e2 lets, agree dv k' e1 e2 -> eval lets e2 a = Some (e2, convert p v))).
  { intros h -> -> -> CV. split; [constructor; [exact I|constructor; [intros e; generalize (space_var k) as sv; intros sv; cbn; destruct (look e sv); reflexivity|constructor; [intros e; reflexivity|constructor]]]|]. split; [lia|]. intros e v L.
    assert (XS : String.eqb x (space_var k) = false) by (apply String.eqb_neq, NS).
    exists ((space_var k, VHandler h (Some v)) :: (space_var k, VHandler h None) :: e), VUnit. split; [|split].
    - revert XS. generalize (space_var k) as sv. intros sv XS. cbn. rewrite !String.eqb_refl. cbn. rewrite XS, L. cbn. rewrite String.eqb_refl. reflexivity.
    - intros y O. cbn [look]. destruct (String.eqb_spec y (space_var k)) as [->|]; [|reflexivity]. specialize (O k eq_refl). lia.
    - intros e2 lets [A _]. cbn [eval]. rewrite (A (space_var k)); [|intros j E; apply space_var_inj in E; lia|apply DS]. cbn [look]. rewrite String.eqb_refl, CV. reflexivity. }
  destruct (pol_rust p) eqn:PR.
  all: try (destruct (pol_type p) eqn:PT); try discriminate; injection H as <- <- <- <- <-.
  all: try (eapply VALUE; try reflexivity; intros; unfold convert; rewrite PR; reflexivity).
  all: eapply SIMPLE; [reflexivity|reflexivity|intros lets e v L; cbn; rewrite L; reflexivity|
    intros; unfold convert, pointer_mut; rewrite PR; try rewrite PT; reflexivity].
Qed.

(** The variable a destination is passed by. *)
Definition dest_var (avoid : bool) (d : arg) : string :=
  match pol_rust (a_conv d) with RcFromPlacementParamToNewReturn => a_name d | _ => var_of avoid d end.
Definition hygienic (avoid : bool) (dv : option string) (d : arg) : Prop :=
  (forall j, var_of avoid d <> space_var j) /\
  (is_destination d = true -> dv = Some (dest_var avoid d) /\
     (pol_rust (a_conv d) = RcNone \/ pol_rust (a_conv d) = RcFromPlacementParamToNewReturn)) /\
  (is_destination d = false -> dv <> Some (var_of avoid d)).

Definition progress (avoid : bool) (dv : option string) (e0 : venv) (ds : list arg) (acc : parts) : Prop :=
  Forall fair (pa_locals acc) /\
  pa_ptr acc = (if existsb is_destination ds then option_map KVar dv else None) /\
  exists e1 w, exec true e0 (map unsafe_form (pa_locals acc)) = Some (e1, w) /\ (forall y, old 0 y -> look e1 y = look e0 y) /\
    Forall2 (fun d c => forall e2 lets, agree dv (pa_counter acc) e1 e2 -> eval lets e2 c = Some (e2, passed avoid d)) ds (pa_args acc).
Lemma agree_back dv K K' e1 e2 e3 : agree dv K' e2 e3 -> K <= K' -> (forall y, old K y -> look e2 y = look e1 y) -> agree dv K e1 e3.
Proof.
  intros [A1 A2] LE F. split; [|exact A2]. intros y O N. rewrite A1; [apply F, O| |exact N]. intros j E. specialize (O j E). lia.
Qed.
Lemma param_parts_progress avoid dv e0 : (forall j, dv <> Some (space_var j)) -> forall ds done acc pa, param_parts avoid ds acc = Some pa ->
  progress avoid dv e0 done acc ->
  (forall d, In d ds -> hygienic avoid dv d /\ (is_destination d = false -> look e0 (var_of avoid d) = Some (VArg (var_of avoid d)))) ->
  progress avoid dv e0 (done ++ ds) pa.
Proof.
  intros DS. induction ds as [|d ds IH]; intros done acc pa H P HY; cbn [param_parts] in H.
  - injection H as <-. rewrite app_nil_r. exact P.
  - replace (done ++ d :: ds) with ((done ++ [d]) ++ ds) by (rewrite <- app_assoc; reflexivity).
    destruct (HY d (or_introl eq_refl)) as ((NS & DST & NDST) & LK). fold (var_of avoid d) in H.
    destruct P as (P1 & P2 & e1 & w & P3 & P4 & P5).
    assert (EX : existsb is_destination (done ++ [d]) = existsb is_destination done || is_destination d).
    { rewrite existsb_app. cbn. rewrite orb_false_r. reflexivity. }
    destruct (rust_conversion (a_conv d) (KVar (var_of avoid d)) (pa_counter acc)) as [[k' [t locals a u|t]]|] eqn:R; [| |discriminate].
    + destruct (is_destination d) eqn:ID.
      * (* a destination passed as it is *)
        destruct (DST eq_refl) as (EDV & [PR|PR]); [|unfold rust_conversion in R; rewrite PR in R; destruct (pol_type (a_conv d)); discriminate].
        assert (PL : a_placement d = true) by (unfold is_destination in ID; rewrite PR, orb_false_r in ID; exact ID).
        unfold rust_conversion in R. rewrite PR in R. injection R as <- <- <- <- <-. rewrite PL in H.
        unfold dest_var in EDV. rewrite PR in EDV.
        apply (IH (done ++ [d])) in H; [exact H| |intros d' I; apply HY; right; exact I].
        split; [cbn; rewrite app_nil_r; exact P1|]. split; [cbn; rewrite EX, orb_true_r, EDV; reflexivity|].
        exists e1, w. cbn. rewrite app_nil_r. split; [exact P3|]. split; [exact P4|]. apply Forall2_app; [exact P5|]. constructor; [|constructor].
        intros e2 lets [_ A2]. cbn. rewrite (A2 _ EDV). unfold passed. rewrite ID. reflexivity.
      * assert (PL : a_placement d = false) by (unfold is_destination in ID; apply orb_false_iff in ID; tauto).
        destruct (one_conversion dv _ _ _ _ _ _ _ _ R NS (NDST eq_refl) DS) as (FR & LE & EV).
        assert (L1 : look e1 (var_of avoid d) = Some (VArg (var_of avoid d))).
        { rewrite P4; [apply LK; reflexivity|]. intros j E. destruct (NS j E). }
        destruct (EV e1 _ L1) as (e2 & w2 & X1 & X2 & X3). rewrite PL in H.
        apply (IH (done ++ [d])) in H; [exact H| |intros d' I; apply HY; right; exact I].
        split; [cbn; apply Forall_app; auto|]. split; [cbn; rewrite EX, orb_false_r; exact P2|].
        assert (E12 : exists w3, exec true e0 (map unsafe_form (pa_locals acc ++ locals)) = Some (e2, w3)).
        { rewrite map_app. destruct locals as [|l0 locals]; [cbn in X1; injection X1 as <- <-; rewrite app_nil_r; eauto|].
          rewrite exec_app by discriminate. rewrite P3. eauto. }
        destruct E12 as (w3 & E12). exists e2, w3. cbn. split; [exact E12|]. split.
        -- intros y O. rewrite X2; [apply P4, O|]. intros j E. specialize (O j E). lia.
        -- apply Forall2_app.
           ++ clear - P5 LE X2. induction P5 as [|d0 c0 l l' Q F IHF]; [constructor|]. constructor; [|exact IHF].
              intros e3 lets A. apply Q. eapply agree_back; eauto.
           ++ constructor; [|constructor]. intros e3 lets A. unfold passed. rewrite ID. apply X3. exact A.
    + assert (PR : pol_rust (a_conv d) = RcFromPlacementParamToNewReturn /\ k' = pa_counter acc).
      { unfold rust_conversion in R. destruct (pol_rust (a_conv d)); try destruct (pol_type (a_conv d)); try discriminate; injection R as <- _; auto. }
      destruct PR as [PR ->].
      assert (ID : is_destination d = true) by (unfold is_destination; rewrite PR; apply orb_true_r).
      destruct (DST ID) as (EDV & _). unfold dest_var in EDV. rewrite PR in EDV.
      apply (IH (done ++ [d])) in H; [exact H| |intros d' I; apply HY; right; exact I].
      split; [exact P1|]. split; [cbn; rewrite EX, ID, orb_true_r, EDV; reflexivity|].
      exists e1, w. cbn. split; [exact P3|]. split; [exact P4|]. apply Forall2_app; [exact P5|]. constructor; [|constructor].
      intros e2 lets [_ A2]. cbn. rewrite (A2 _ EDV). unfold passed. rewrite ID. reflexivity.
Qed.

Lemma args_passed avoid dv K e1 e2 : agree dv K e1 e2 -> forall ds cs,
  Forall2 (fun d c => forall e2 lets, agree dv K e1 e2 -> eval lets e2 c = Some (e2, passed avoid d)) ds cs ->
  eval_args e2 cs = Some (e2, map (passed avoid) ds).
Proof.
  intros A ds cs F. induction F as [|d c ds cs H F IH]; [reflexivity|]. cbn. rewrite (H e2 false A), IH. reflexivity.
Qed.
Lemma result_conversion rc expr k k' t a u : rust_conversion rc expr k = Some (k', RParam t [] a u) ->
  (forall lets e v, (forall lets, eval lets e expr = Some (e, v)) -> eval lets e a = Some (e, convert rc v)) /\
  (u = true -> forall e, eval true e a = eval false e a).
Proof.
  intros H. unfold rust_conversion in H.
  destruct (pol_rust rc) eqn:PR; try destruct (pol_type rc) eqn:PT; try discriminate; injection H as <- <- <- <-;
    (split; [|try discriminate; reflexivity]); intros lets e v E; unfold convert, pointer_mut; rewrite PR; try rewrite PT; cbn; rewrite E; reflexivity.
Qed.

Lemma common_parts_passes np fa avoid order rt sg body dv e0 : common_parts np fa avoid order rt = Some (sg, body) ->
  (forall j, dv <> Some (space_var j)) -> (dv <> None -> existsb is_destination (fa_details fa) = true) ->
  (forall d, In d (fa_details fa) -> hygienic avoid dv d /\ (is_destination d = false -> look e0 (var_of avoid d) = Some (VArg (var_of avoid d)))) ->
  exists e', exec true e0 body = Some (e', returned avoid fa).
Proof.
  intros H DS HD HY. unfold common_parts in H.
  destruct (param_parts avoid (fa_details fa) (Parts [] [] [] None rt false 0)) as [pa|] eqn:PA; [|discriminate].
  destruct (match order with Some o => reorder (pa_params pa) o | None => Some (pa_params pa) end) as [wps|]; [|discriminate].
  destruct (add_explicit_lifetime_if_necessary np (fa_details fa) true wps (pa_ret pa) (fa_ret_conv fa)) as [s|]; [|discriminate].
  cbv zeta in H.
  set (ctx := match fa_unsafe fa with UAlways => true | _ => false end) in *.
  set (call_body := if pa_unsafe pa || match fa_unsafe fa with UJustBridge => true | _ => false end
               then NeedsUnsafe (KCall (fa_bridge fa) (pa_args pa)) else Normal (KCall (fa_bridge fa) (pa_args pa))) in *.
  match type of H with match ?conv with _ => _ end = _ => destruct conv as [[cb rty']|] eqn:CONV; [|discriminate] end.
  (* the environment in which the locals run *)
  set (start := match dv with Some x => (x, VDest) :: e0 | None => e0 end).
  assert (LS : forall d, In d (fa_details fa) -> hygienic avoid dv d /\ (is_destination d = false -> look start (var_of avoid d) = Some (VArg (var_of avoid d)))).
  { intros d I. destruct (HY d I) as [HG LK]. split; [exact HG|]. intros ND. unfold start. destruct dv as [x|]; [|auto].
    cbn. destruct (String.eqb_spec (var_of avoid d) x) as [<-|]; [|auto]. destruct HG as (_ & _ & HG). destruct (HG ND eq_refl). }
  apply (param_parts_progress avoid dv start DS (fa_details fa) []) in PA; [|split; [constructor|split; [reflexivity|exists start, VUnit; repeat split; constructor]]|exact LS].
  cbn [app] in PA. destruct PA as (FR & PTR & e1 & w & EX & OLD & F2).
  (* the statements which make the call *)
  set (result := match fa_ret_conv fa with Some rc => convert rc (VCall (fa_bridge fa) (map (passed avoid) (fa_details fa))) | None => VCall (fa_bridge fa) (map (passed avoid) (fa_details fa)) end).
  assert (CALL : forall e2 lets, agree dv (pa_counter pa) e1 e2 -> eval lets e2 (KCall (fa_bridge fa) (pa_args pa)) = Some (e2, VCall (fa_bridge fa) (map (passed avoid) (fa_details fa)))).
  { intros e2 lets A. rewrite eval_call, (args_passed avoid dv _ e1 e2 A _ _ F2). reflexivity. }
  assert (CF : fair call_body /\ unsafe_form call_body = KCall (fa_bridge fa) (pa_args pa)).
  { unfold call_body. destruct (pa_unsafe pa || _); (split; [|reflexivity]); [intros e; rewrite !eval_call; reflexivity|exact I]. }
  assert (CBF : fair cb /\ forall e2 lets, agree dv (pa_counter pa) e1 e2 -> eval lets e2 (unsafe_form cb) = Some (e2, result)).
  { destruct CF as [CF1 CF2]. unfold result. destruct (fa_ret_conv fa) as [rc|] eqn:RC.
    - destruct (rust_work_needed rc) eqn:RW.
      + destruct (maybe_unsafes_to_tokens [call_body] ctx) as [|expr [|x2 l2]] eqn:MT; try discriminate.
        destruct (rust_conversion rc expr (pa_counter pa)) as [[k' [t [|l0 locals] a u|t]]|] eqn:R; try discriminate.
        destruct (result_conversion _ _ _ _ _ _ _ R) as (EV & FU).
        assert (EXPR : forall e2, agree dv (pa_counter pa) e1 e2 -> forall lets, eval lets e2 expr = Some (e2, VCall (fa_bridge fa) (map (passed avoid) (fa_details fa)))).
        { intros e2 A lets. unfold call_body in MT. destruct ctx; cbn in MT.
          - destruct (pa_unsafe pa || _); injection MT as <-; apply CALL, A.
          - destruct (pa_unsafe pa || _); cbn in MT; injection MT as <-; [|apply CALL, A].
            rewrite eval_block. cbn [exec]. rewrite (CALL e2 false A). reflexivity. }
        destruct u; injection CONV as <- <-; cbn; (split; [auto|]); intros e2 lets A; apply EV; apply EXPR; exact A.
      + injection CONV as <- <-. split; [exact CF1|]. intros e2 lets A. rewrite CF2, (CALL e2 lets A). unfold convert.
        unfold rust_work_needed in RW. destruct (pol_rust rc); try discriminate. reflexivity.
    - injection CONV as <- <-. split; [exact CF1|]. intros e2 lets A. rewrite CF2. apply CALL, A. }
  destruct CBF as [CBF CBE]. unfold returned. fold result. rewrite PTR in H.
  assert (RUN : forall lst, lst <> [] -> exec true start (map unsafe_form (pa_locals pa) ++ lst) = exec true e1 lst).
  { intros lst N. rewrite exec_app by exact N. rewrite EX. reflexivity. }
  destruct (existsb is_destination (fa_details fa)) eqn:ED.
  - destruct dv as [x|]; cbn in H.
    + injection H as <- <-. cbn in start.
      set (closure := pa_locals pa ++ [Binary (KLet x (KUnsafe [KUninitPtr (KVar x)])) (KLet x (KUninitPtr (KVar x))); cb]).
      match goal with |- context [map ?f closure] => change (map f closure) with (map unsafe_form closure) end.
      assert (EC : exec true start (map unsafe_form closure) = Some ((x, VUninitPtr VDest) :: e1, result)).
      { unfold closure. rewrite map_app, RUN by discriminate. cbn [map unsafe_form exec eval].
        assert (LX : look e1 x = Some VDest). { rewrite OLD; [unfold start; cbn; rewrite String.eqb_refl; reflexivity|]. intros j E. subst. destruct (DS j eq_refl). }
        rewrite LX. rewrite (CBE ((x, VUninitPtr VDest) :: e1) true); [reflexivity|]. split.
        - intros y O N. cbn. destruct (String.eqb_spec y x) as [->|]; [congruence|reflexivity].
        - intros x0 E. injection E as <-. cbn. rewrite String.eqb_refl. reflexivity. }
      assert (EB : forall lets, eval lets e0 (KByRaw x (map unsafe_form closure)) = Some (e0, VNew result)).
      { intros lets. rewrite eval_by_raw. unfold start in EC. rewrite EC. reflexivity. }
      exists e0. destruct ctx; cbn [maybe_unsafes_to_tokens map group_unsafe exec]; [rewrite (EB true); reflexivity|].
      rewrite eval_block. cbn [exec]. rewrite (EB false). reflexivity.
    + exfalso. apply existsb_exists in ED as (d & I & ID). destruct (HY d I) as ((_ & DST & _) & _). destruct (DST ID) as [E _]. discriminate.
  - assert (DN : dv = None) by (destruct dv; [discriminate (HD ltac:(discriminate))|reflexivity]).
    injection H as <- <-. subst dv. cbn in start. unfold start in RUN. exists e1.
    rewrite c27_blocks_are_transparent; [|apply Forall_app; split; [exact FR|constructor; [exact CBF|constructor]]].
    rewrite map_app. cbn [map]. rewrite RUN by discriminate. cbn [exec]. rewrite (CBE e1 true); [reflexivity|].
    split; [reflexivity|discriminate].
Qed.

(** Which parameters and which statements a kind of function has. *)
Definition avoid_of (k : fn_kind) : bool :=
  match k with FMethod (MConstructor _) _ => true | FTraitMethod tk _ => fst (trait_order tk) | _ => false end.
Definition order_of (k : fn_kind) : option (list nat) :=
  match k with FTraitMethod tk _ => snd (trait_order tk) | _ => None end.
Lemma gen_wrapper np fa o w : gen_function np fa = Some o -> o_wrapper o = Some w ->
  exists (rt : option rty) (sg : sig) (body : list code), common_parts np fa (avoid_of (fa_kind fa)) (order_of (fa_kind fa)) rt = Some (sg, body) /\
    w = RF (wrapper_token (fa_unsafe fa)) (fa_rust fa) sg body.
Proof.
  unfold gen_function. destruct (_ || negb (fa_external fa)); [intros H W; injection H as <-; discriminate|].
  destruct (add_explicit_lifetime_if_necessary _ _ _ _ _ _) as [bs|]; [|discriminate].
  destruct (fa_rust_wrapper fa); [|intros H W; injection H as <-; discriminate].
  destruct (fa_kind fa) as [|mk q|tk q]; [|destruct mk|]; cbn [avoid_of order_of];
    (match goal with |- context [common_parts ?a ?b ?c ?d ?e] => destruct (common_parts a b c d e) as [[sg body]|] eqn:C end; [|discriminate]);
    intros H W; injection H as <-; injection W as <-; eauto.
Qed.

Lemma lifetime_names np ds rc ps rt rec sg : add_explicit_lifetime_if_necessary np ds rec ps rt rc = Some sg ->
  map wp_name (sg_params sg) = map wp_name ps.
Proof.
  assert (N : forall ps ps', params_with_lifetime ps = Some ps' -> map wp_name ps' = map wp_name ps).
  { clear. induction ps as [|p r IH]; intros ps' H; cbn in H; [injection H as <-; reflexivity|].
    destruct (param_with_lifetime p) as [p'|] eqn:P; [|discriminate]. destruct (params_with_lifetime r) as [r'|] eqn:R; [|discriminate].
    injection H as <-. cbn. rewrite (IH r' eq_refl). f_equal. unfold param_with_lifetime in P.
    destruct (wp_type p) as [[| | | | |]|]; try (injection P as <-; reflexivity).
    destruct (add_lifetime_to_pinned_reference _ _ _); try discriminate; injection P as <-; reflexivity. }
  unfold add_explicit_lifetime_if_necessary. intros H.
  destruct (reference_parameter_is_non_pod_reference np rec ps) as [b1|]; [|discriminate].
  destruct (return_type_is_pod_or_known_type_reference np rt) as [b2|]; [|discriminate].
  match type of H with (if ?c then _ else _) = _ => destruct c end; [injection H as <-; reflexivity|].
  destruct (ret_with_lifetime rt); [discriminate|injection H as <-; reflexivity|].
  destruct (params_with_lifetime ps) as [ps'|] eqn:P; [|discriminate]. injection H as <-. apply N, P.
Qed.
Lemma param_parts_names avoid : forall ds acc pa, param_parts avoid ds acc = Some pa ->
  map wp_name (pa_params pa) = map wp_name (pa_params acc) ++ map (var_of avoid) (filter (fun d => negb (is_destination d)) ds).
Proof.
  induction ds as [|d ds IH]; intros acc pa H; cbn [param_parts] in H; [injection H as <-; cbn; rewrite app_nil_r; reflexivity|].
  fold (var_of avoid d) in H.
  destruct (rust_conversion (a_conv d) (KVar (var_of avoid d)) (pa_counter acc)) as [[k' [t locals a u|t]]|] eqn:R; [| |discriminate]; apply IH in H; cbn in H; rewrite H; cbn [filter].
  - assert (NR : is_destination d = a_placement d).
    { unfold is_destination. destruct (pol_rust (a_conv d)) eqn:PR; try apply orb_false_r.
      unfold rust_conversion in R. rewrite PR in R. destruct (pol_type (a_conv d)); discriminate. }
    rewrite NR. destruct (a_placement d); cbn [negb]; [reflexivity|]. rewrite map_app, <- app_assoc. reflexivity.
  - assert (ID : is_destination d = true).
    { unfold is_destination. unfold rust_conversion in R. destruct (pol_rust (a_conv d)); try destruct (pol_type (a_conv d)); try discriminate; apply orb_true_r. }
    rewrite ID. reflexivity.
Qed.
Lemma look_names names x : In x names -> look (map (fun n => (n, VArg n)) names) x = Some (VArg x).
Proof.
  induction names as [|y r IH]; [contradiction|]. cbn. intros I. destruct (String.eqb_spec x y) as [<-|N]; [reflexivity|].
  apply IH. destruct I; [congruence|assumption].
Qed.

(** The names in a wrapper do not get in each other's way: no parameter has the name of a variable the
    generator invents, and if the result is written through a pointer there is one such pointer, with a
    name of its own. Functions whose parameters are swapped have two of them. *)
Definition no_capture (avoid : bool) (order : option (list nat)) (ds : list arg) : Prop :=
  (forall d j, In d ds -> var_of avoid d <> space_var j /\ dest_var avoid d <> space_var j) /\
  (forall d, In d ds -> is_destination d = true -> pol_rust (a_conv d) = RcNone \/ pol_rust (a_conv d) = RcFromPlacementParamToNewReturn) /\
  (forall d d', In d ds -> In d' ds -> is_destination d = true ->
     if is_destination d' then dest_var avoid d' = dest_var avoid d else var_of avoid d' <> dest_var avoid d) /\
  (order <> None -> order = Some [1; 0] /\ List.length (filter (fun d => negb (is_destination d)) ds) = 2).

(** C66: run with the parameters of its signature, a wrapper calls the bridge function with every parameter
    converted, in the order the bridge expects, and returns the converted result. *)
Theorem c66_wrapper_passes_arguments : forall np fa o w,
  gen_function np fa = Some o -> o_wrapper o = Some w ->
  no_capture (avoid_of (fa_kind fa)) (order_of (fa_kind fa)) (fa_details fa) ->
  exists e', exec true (map (fun p => (wp_name p, VArg (wp_name p))) (sg_params (rf_sig w))) (rf_body w)
             = Some (e', returned (avoid_of (fa_kind fa)) fa).
Proof.
  intros np fa o w G W (N1 & N2 & N3 & N4). destruct (gen_wrapper _ _ _ _ G W) as (rt & sg & body & C & ->). cbn [rf_sig rf_body].
  set (avoid := avoid_of (fa_kind fa)) in *.
  set (dv := match find is_destination (fa_details fa) with Some d => Some (dest_var avoid d) | None => None end).
  assert (ENV : forall d, In d (fa_details fa) -> is_destination d = false ->
    look (map (fun p => (wp_name p, VArg (wp_name p))) (sg_params sg)) (var_of avoid d) = Some (VArg (var_of avoid d))).
  { intros d I ND. rewrite <- (map_map wp_name (fun n => (n, VArg n))). apply look_names.
    unfold common_parts in C.
    destruct (param_parts avoid (fa_details fa) (Parts [] [] [] None rt false 0)) as [pa|] eqn:PA; [|discriminate].
    apply param_parts_names in PA. cbn in PA.
    destruct (match order_of (fa_kind fa) with Some o => reorder (pa_params pa) o | None => Some (pa_params pa) end) as [wps|] eqn:RO; [|discriminate].
    destruct (add_explicit_lifetime_if_necessary np (fa_details fa) true wps (pa_ret pa) (fa_ret_conv fa)) as [s|] eqn:AL; [|discriminate].
    apply lifetime_names in AL. cbv zeta in C.
    match type of C with match ?conv with _ => _ end = _ => destruct conv as [[cb rty']|]; [|discriminate] end.
    match type of C with match ?conv with _ => _ end = _ => destruct conv as [stmts|]; [|discriminate] end. injection C as <- _. cbn [sg_params].
    assert (IN : In (var_of avoid d) (map wp_name (pa_params pa))).
    { rewrite PA. apply in_map. apply filter_In. split; [exact I|]. rewrite ND. reflexivity. }
    rewrite AL. destruct (order_of (fa_kind fa)) as [ord|] eqn:OO; [|injection RO as <-; exact IN].
    destruct (N4 ltac:(discriminate)) as (E & LEN). injection E as ->.
    assert (L2 : List.length (pa_params pa) = 2) by (rewrite <- (map_length wp_name), PA, map_length; exact LEN).
    destruct (pa_params pa) as [|p0 [|p1 [|p2 l]]]; try discriminate. cbn in RO. injection RO as <-. cbn in IN |- *. tauto. }
  eapply (common_parts_passes np fa avoid _ rt sg body dv); [exact C| | |].
  - intros j E. unfold dv in E. destruct (find is_destination (fa_details fa)) as [d|] eqn:F; [|discriminate]. injection E as E.
    apply find_some in F as [I _]. destruct (N1 d j I) as [_ N]. exact (N E).
  - intros D. unfold dv in D. destruct (find is_destination (fa_details fa)) as [d|] eqn:F; [|congruence].
    apply find_some in F as [I ID]. apply existsb_exists. eauto.
  - intros d I. split; [|apply ENV, I]. split; [intros j; apply (N1 d j I)|]. split.
    + intros ID. split; [|apply N2; assumption]. unfold dv. destruct (find is_destination (fa_details fa)) as [d0|] eqn:F.
      * apply find_some in F as [I0 ID0]. specialize (N3 d0 d I0 I ID0). rewrite ID in N3. rewrite N3. reflexivity.
      * apply (find_none _ _ F) in I. congruence.
    + intros ND E. unfold dv in E. destruct (find is_destination (fa_details fa)) as [d0|] eqn:F; [|discriminate]. injection E as E.
      apply find_some in F as [I0 ID0]. specialize (N3 d0 d I0 I ID0). rewrite ND in N3. congruence.
Qed.
Print Assumptions c66_wrapper_passes_arguments.

(** Without that condition the claim fails: in [void f(A a, uint8_t space0)] the variable invented for [a] hides
    the parameter called [space0]. *)
Theorem c66_capture_refuted : exists fn st' fa nm o w e' v,
  run [] AllFunctionsSafe fn = (st', OOk (fa, nm)) /\ gen_function [] fa = Some o /\ o_wrapper o = Some w /\
  NoDup (map fst (f_inputs fn)) /\
  exec true (map (fun p => (wp_name p, VArg (wp_name p))) (sg_params (rf_sig w))) (rf_body w) = Some (e', v) /\
  v <> returned (avoid_of (fa_kind fa)) fa.
Proof.
  exists (plain_fn "f" [("a", class_A); ("space0", byte)] None). vm_compute. do 7 eexists.
  split; [reflexivity|]. split; [reflexivity|]. split; [reflexivity|]. split; [|split; [reflexivity|discriminate]].
  repeat constructor; cbn; intuition discriminate.
Qed.
Print Assumptions c66_capture_refuted.

(** Cases meeting the hypotheses: a by-value parameter, a raw pointer and a reference; and a function whose result
    is put in place. *)
Example c66_case : exists st' fa nm o w,
  run [] AllFunctionsSafe (plain_fn "f" [("a", class_A); ("b", byte); ("c", class_A)] None) = (st', OOk (fa, nm)) /\
  gen_function [] fa = Some o /\ o_wrapper o = Some w /\ rf_unsafe w = false /\ simple_result fa /\
  no_capture (avoid_of (fa_kind fa)) (order_of (fa_kind fa)) (fa_details fa) /\
  returned (avoid_of (fa_kind fa)) fa =
    VCall "f_autocxx_wrapper_hash" [VPtrOf (VHandler "ValueParamHandler" (Some (VArg "a"))); VArg "b"; VPtrOf (VHandler "ValueParamHandler" (Some (VArg "c")))].
Proof.
  do 5 eexists. split; [vm_compute; reflexivity|]. split; [vm_compute; reflexivity|]. split; [reflexivity|]. split; [reflexivity|].
  split; [intros rc E; discriminate|]. split; [|reflexivity]. split; [|split; [|split]].
  - intros d j I. cbn in I. destruct I as [<-|[<-|[<-|[]]]]; split; intros E; discriminate.
  - intros d I E. cbn in I. destruct I as [<-|[<-|[<-|[]]]]; discriminate.
  - intros d d' I _ E. cbn in I. destruct I as [<-|[<-|[<-|[]]]]; discriminate.
  - intros E. destruct (E eq_refl).
Qed.
Definition fenv_moveit : fn_env :=
  FE env0 AllFunctionsSafe false (build_pod_safe_type_set []) [QN [] "A"] [] [] [] (fun _ => true) "hash" false (fun _ => false) 20.
Example c66_placement_case : exists st' fa nm o w,
  analyze_foreign_fn fenv_moveit (AN (QN [] "f") None) (plain_fn "f" [("a", class_A)] (Some class_A)) Regular None st0 = (st', OOk (fa, nm)) /\
  gen_function [] fa = Some o /\ o_wrapper o = Some w /\
  no_capture (avoid_of (fa_kind fa)) (order_of (fa_kind fa)) (fa_details fa) /\
  returned (avoid_of (fa_kind fa)) fa =
    VNew (VCall "f_autocxx_wrapper_hash" [VPtrOf (VHandler "ValueParamHandler" (Some (VArg "a"))); VUninitPtr VDest]).
Proof.
  do 5 eexists. split; [vm_compute; reflexivity|]. split; [vm_compute; reflexivity|]. split; [reflexivity|]. split; [|reflexivity].
  split; [|split; [|split]].
  - intros d j I. cbn in I. destruct I as [<-|[<-|[]]]; split; intros E; discriminate.
  - intros d I E. cbn in I. destruct I as [<-|[<-|[]]]; [discriminate|]. right. reflexivity.
  - intros d d' I I' E. cbn in I, I'. destruct I as [<-|[<-|[]]]; [discriminate|]. destruct I' as [<-|[<-|[]]]; [discriminate|reflexivity].
  - intros E. destruct (E eq_refl).
Qed.

(** * C28 *)

(** Where the lifetime ['a] occurs. *)
Fixpoint mentions_a (t : ty) : bool :=
  match t with
  | TPath _ _ args => existsb mentions_a args
  | TRef _ lt e => (match lt with Some l => String.eqb l "'a" | None => false end) || mentions_a e
  | TPtr _ e | TArray e _ => mentions_a e
  | TOther _ => false
  | TNonType s => String.eqb s "'a"
  end.
Definition rty_mentions_a (t : rty) : bool :=
  match t with RTy u => mentions_a u | RImpl _ arg lt => lt || match arg with Some u => mentions_a u | None => false end end.
Definition sig_mentions_a (s : sig) : bool :=
  existsb (fun p => rty_mentions_a (wp_type p)) (sg_params s) || match sg_ret s with Some t => rty_mentions_a t | None => false end.

Lemma lifetimes_declared np ds rc ps rt rec sg : add_explicit_lifetime_if_necessary np ds rec ps rt rc = Some sg ->
  existsb (fun p => rty_mentions_a (wp_type p)) ps = false -> (match rt with Some t => rty_mentions_a t | None => false end) = false ->
  sg_lt sg = true \/ (sig_mentions_a sg = false /\ (forall p, rc = Some p -> pol_rust p <> RcFromPointerToReferenceWrapper)).
Proof.
  unfold add_explicit_lifetime_if_necessary. intros H NP NR.
  destruct (reference_parameter_is_non_pod_reference np rec ps) as [b1|]; [|discriminate].
  destruct (return_type_is_pod_or_known_type_reference np rt) as [b2|]; [|discriminate].
  assert (RC : forall b, match rc with Some p => match pol_rust p with RcFromPointerToReferenceWrapper => true | _ => false end | None => false end || b = false ->
    forall p, rc = Some p -> pol_rust p <> RcFromPointerToReferenceWrapper).
  { intros b E p -> R. rewrite R in E. discriminate. }
  match type of H with (if negb ?c then _ else _) = _ => destruct c eqn:C end; cbn [negb] in H.
  - destruct (ret_with_lifetime rt) as [| |rt']; [discriminate| |].
    + injection H as <-. cbn [sg_lt].
      match goal with |- ?b = true \/ _ => destruct b eqn:B; [left; reflexivity|right] end.
      split; [unfold sig_mentions_a; cbn; rewrite NP, NR; reflexivity|]. eapply RC. exact B.
    + destruct (params_with_lifetime ps); [|discriminate]. injection H as <-. left. reflexivity.
  - injection H as <-. right. split; [unfold sig_mentions_a; cbn; rewrite NP, NR; reflexivity|].
    apply orb_false_iff in C as [C _]. apply orb_false_iff in C as [_ C]. apply (RC false). rewrite orb_false_r. exact C.
Qed.

(** The types the analysis worked out do not mention ['a] themselves, and wrapped references are made for results
    only. *)
Definition no_lifetimes (fa : fn_analysis) : Prop :=
  (forall p, In p (fa_params fa) -> mentions_a (snd p) = false) /\
  (forall t, fa_ret fa = Some t -> mentions_a t = false) /\
  (forall d, In d (fa_details fa) -> mentions_a (pol_type (a_conv d)) = false /\ pol_rust (a_conv d) <> RcFromPointerToReferenceWrapper) /\
  (forall p, fa_ret_conv fa = Some p -> mentions_a (pol_type p) = false).

Lemma unqualify_mentions t : mentions_a (unqualify_type t) = mentions_a t.
Proof.
  induction t using ty_ind'; cbn; auto.
  - induction H as [|x l H F IH]; [reflexivity|]. cbn. rewrite IH. destruct x; rewrite <- ?H; reflexivity.
  - rewrite IHt. reflexivity.
Qed.

Lemma converted_plain p : mentions_a (pol_type p) = false -> mentions_a (converted_rust_type p) = false.
Proof. unfold converted_rust_type, make_unique_ptr_type. destruct (pol_cpp p); cbn; rewrite ?orb_false_r; auto. Qed.
Lemma conversion_plain p c k k' t l a u : rust_conversion p c k = Some (k', RParam t l a u) -> mentions_a (pol_type p) = false ->
  pol_rust p <> RcFromPointerToReferenceWrapper -> rty_mentions_a t = false.
Proof.
  intros R P1 P2. unfold rust_conversion in R. destruct (pol_rust p); try congruence.
  1: { injection R as <- <- <- <- <-. apply converted_plain, P1. }
  all: try (injection R as <- <- <- <- <-; cbn; rewrite ?P1; reflexivity).
  all: destruct (pol_type p) as [| |mu e| | |]; try discriminate; injection R as <- <- <- <- <-; cbn in *; rewrite ?P1; try reflexivity.
Qed.
Lemma param_types_plain avoid : forall ds acc pa, param_parts avoid ds acc = Some pa ->
  (forall d, In d ds -> mentions_a (pol_type (a_conv d)) = false /\ pol_rust (a_conv d) <> RcFromPointerToReferenceWrapper) ->
  existsb (fun p => rty_mentions_a (wp_type p)) (pa_params acc) = false -> (match pa_ret acc with Some t => rty_mentions_a t | None => false end) = false ->
  existsb (fun p => rty_mentions_a (wp_type p)) (pa_params pa) = false /\ (match pa_ret pa with Some t => rty_mentions_a t | None => false end) = false.
Proof.
  induction ds as [|d ds IH]; intros acc pa H PL A1 A2; cbn [param_parts] in H; [injection H as <-; auto|].
  destruct (PL d (or_introl eq_refl)) as [P1 P2].
  match type of H with context [rust_conversion ?p ?c ?k] => destruct (rust_conversion p c k) as [[k' [t locals a u|t]]|] eqn:R end; [| |discriminate].
  - apply IH in H; [exact H|intros d' I; apply PL; right; exact I| |exact A2]. cbn. destruct (a_placement d); [exact A1|].
    rewrite existsb_app, A1. cbn. rewrite orb_false_r. eapply conversion_plain; eauto.
  - apply IH in H; [exact H|intros d' I; apply PL; right; exact I|exact A1|]. cbn. unfold rust_conversion in R.
    destruct (pol_rust (a_conv d)) eqn:PR; try destruct (pol_type (a_conv d)) eqn:PT; try discriminate; injection R as <- <-; exact P1.
Qed.

(** C28: in the bridge declaration and in the wrapper, ['a] is declared if it is used. *)
Theorem c28_declared : forall np fa o f, gen_function np fa = Some o -> no_lifetimes fa ->
  (o_bridge o = Some f \/ o_wrapper o = Some f) -> sig_mentions_a (rf_sig f) = true -> sg_lt (rf_sig f) = true.
Proof.
  intros np fa o f G (P1 & P2 & P3 & P4) [B|W] M.
  - destruct (gen_inv _ _ _ G) as [->|(bs & AL & _ & _ & OB & _)]; [discriminate|]. rewrite OB in B. injection B as <-. cbn in *.
    apply lifetimes_declared in AL as [AL|(AL & _)]; [exact AL| | |].
    + exfalso. unfold sig_mentions_a in *. cbn in M. apply orb_false_iff in AL as [A1 A2].
      assert (U : forall t, rty_mentions_a (unqualify_rty t) = rty_mentions_a t) by (intros [t|]; cbn; [apply unqualify_mentions|reflexivity]).
      assert (E : existsb (fun p => rty_mentions_a (wp_type p)) (map (fun p => WP (wp_mut p) (wp_name p) (unqualify_rty (wp_type p))) (sg_params bs)) = false).
      { rewrite <- A1. clear - U. induction (sg_params bs) as [|p l IH]; [reflexivity|]. cbn. rewrite U, IH. reflexivity. }
      rewrite E in M. destruct (sg_ret bs) as [t|]; [|discriminate]. cbn in M. rewrite U, A2 in M. discriminate.
    + clear - P1. induction (fa_params fa) as [|p l IH]; [reflexivity|]. cbn. rewrite (P1 p (or_introl eq_refl)). apply IH. intros q I. apply P1. right. exact I.
    + destruct (fa_ret fa) as [t|]; [cbn; apply P2; reflexivity|reflexivity].
  - assert (RT : forall rt, (rt = Some (RImpl new_type (Some (TPath [] "Self" [])) false) \/ rt = match fa_ret fa with Some t => Some (RTy t) | None => None end) ->
      match rt with Some t => rty_mentions_a t | None => false end = false).
    { intros rt [->| ->]; [reflexivity|]. destruct (fa_ret fa) as [t|]; [cbn; apply P2; reflexivity|reflexivity]. }
    assert (C : exists rt sg body, (rt = Some (RImpl new_type (Some (TPath [] "Self" [])) false) \/ rt = match fa_ret fa with Some t => Some (RTy t) | None => None end) /\
      common_parts np fa (avoid_of (fa_kind fa)) (order_of (fa_kind fa)) rt = Some (sg, body) /\ rf_sig f = sg).
    { unfold gen_function in G. destruct (_ || negb (fa_external fa)) in G; [injection G as <-; discriminate|].
      destruct (add_explicit_lifetime_if_necessary _ _ _ _ _ _) as [bs|] in G; [|discriminate].
      destruct (fa_rust_wrapper fa); [|injection G as <-; discriminate].
      destruct (fa_kind fa) as [|mk q|tk q]; [|destruct mk|]; cbn [avoid_of order_of];
        (match type of G with context [common_parts ?a ?b ?c ?d ?e] => destruct (common_parts a b c d e) as [[sg body]|] eqn:C end; [|discriminate]);
        injection G as <-; injection W as <-; do 3 eexists; (split; [|split; [exact C|reflexivity]]); auto. }
    destruct C as (rt & sg & body & RTE & C & EQ). rewrite EQ in M |- *. apply RT in RTE. clear W G RT. unfold common_parts in C.
    destruct (param_parts (avoid_of (fa_kind fa)) (fa_details fa) (Parts [] [] [] None rt false 0)) as [pa|] eqn:PA; [|discriminate].
    apply param_types_plain in PA as (Q1 & Q2); [|exact P3|reflexivity|exact RTE].
    destruct (match order_of (fa_kind fa) with Some o => reorder (pa_params pa) o | None => Some (pa_params pa) end) as [wps|] eqn:RO; [|discriminate].
    assert (Q3 : existsb (fun p => rty_mentions_a (wp_type p)) wps = false).
    { destruct (order_of (fa_kind fa)) as [ord|]; [|injection RO as <-; exact Q1].
      destruct (existsb _ wps) eqn:E; [|reflexivity]. apply existsb_exists in E as (w & I & E). apply (reorder_In _ _ _ _ RO) in I.
      assert (X : existsb (fun p => rty_mentions_a (wp_type p)) (pa_params pa) = true) by (apply existsb_exists; eauto). congruence. }
    destruct (add_explicit_lifetime_if_necessary np (fa_details fa) true wps (pa_ret pa) (fa_ret_conv fa)) as [s|] eqn:AL; [|discriminate].
    cbv zeta in C.
    match type of C with match ?conv with _ => _ end = _ => destruct conv as [[cb rty']|] eqn:CONV; [|discriminate] end.
    match type of C with match ?conv with _ => _ end = _ => destruct conv as [stmts|]; [|discriminate] end. injection C as <- _. cbn [sg_lt].
    destruct (lifetimes_declared _ _ _ _ _ _ _ AL Q3 Q2) as [X|(X & NRC)]; [exact X|exfalso].
    unfold sig_mentions_a in M, X. cbn [sg_params sg_ret] in M. apply orb_false_iff in X as [X1 X2]. rewrite X1 in M. cbn [orb] in M.
    destruct (fa_ret_conv fa) as [rc|] eqn:RC; [destruct (rust_work_needed rc)|]; try (injection CONV as <- <-; congruence).
    match type of CONV with context [maybe_unsafes_to_tokens ?l ?b] => destruct (maybe_unsafes_to_tokens l b) as [|expr [|e2 l2]] end; try discriminate.
    match type of CONV with context [rust_conversion ?p ?c ?k] => destruct (rust_conversion p c k) as [[k' [t [|l0 locals] a u|t]]|] eqn:R end; try discriminate.
    injection CONV as <- <-. rewrite (conversion_plain _ _ _ _ _ _ _ _ R (P4 rc eq_refl) (NRC rc eq_refl)) in M. discriminate.
Qed.
Print Assumptions c28_declared.

(** A Rust type which borrows, with the lifetime it borrows for. *)
Definition borrows_for (t : rty) (lt : option string) : Prop :=
  match t with
  | RTy (TRef _ l _) => l = lt
  | RTy (TPath [c; "pin"] "Pin" (TRef _ l _ :: _)) => (c = "core" \/ c = "std") /\ l = lt
  | RImpl _ _ l => (if l then Some "'a" else None) = lt
  | _ => False
  end.

(** C28: when the result borrows for ['a], every parameter which borrows does so for ['a] too. *)
Theorem c28_shared : forall np details receiver ps rt ret_conv sg,
  add_explicit_lifetime_if_necessary np details receiver ps rt ret_conv = Some sg ->
  (match rt with Some t => rty_mentions_a t | None => false end) = false ->
  (match sg_ret sg with Some t => rty_mentions_a t | None => false end) = true ->
  forall p lt, In p (sg_params sg) -> borrows_for (wp_type p) lt -> lt = Some "'a".
Proof.
  intros np details receiver ps rt rc sg H NR M p lt I B. unfold add_explicit_lifetime_if_necessary in H.
  destruct (reference_parameter_is_non_pod_reference np receiver ps) as [b1|]; [|discriminate].
  destruct (return_type_is_pod_or_known_type_reference np rt) as [b2|]; [|discriminate].
  match type of H with (if ?c then _ else _) = _ => destruct c end; [injection H as <-; cbn in M; congruence|].
  destruct (ret_with_lifetime rt); [discriminate|injection H as <-; cbn in M; congruence|].
  destruct (params_with_lifetime ps) as [ps'|] eqn:P; [|discriminate]. injection H as <-. cbn in I. clear - P I B.
  revert ps' P I. induction ps as [|q r IH]; intros ps' P I; cbn in P; [injection P as <-; contradiction|].
  destruct (param_with_lifetime q) as [q'|] eqn:Q; [|discriminate]. destruct (params_with_lifetime r) as [r'|]; [|discriminate]. injection P as <-.
  destruct I as [<-|I]; [|eapply IH; eauto]. clear IH. unfold param_with_lifetime in Q.
  destruct (wp_type q) as [t|tr a l] eqn:T; [|injection Q as <-; cbn in B; congruence].
  destruct t as [lead id args|m l e|m e|e n|s|s]; try (injection Q as <-; rewrite T in B; contradiction).
  2: { injection Q as <-. cbn in B. congruence. }
  assert (PIN : forall ar, borrows_for (RTy (TPath lead id ar)) lt -> exists c m l e more, lead = [c; "pin"] /\ id = "Pin" /\ ar = TRef m l e :: more /\ (c = "core" \/ c = "std") /\ l = lt).
  { intros ar X. cbn in X. destruct lead as [|c [|c2 [|c3 lead]]]; try contradiction.
    all: repeat match type of X with match ?s with _ => _ end => destruct s; try contradiction end; try contradiction.
    destruct X. do 5 eexists. eauto. }
  destruct (add_lifetime_to_pinned_reference lead id args) as [| |args'] eqn:AP; [|discriminate|]; injection Q as <-; cbn [wp_type] in B; [rewrite T in B|].
  - apply PIN in B as (c & m & l & e & more & -> & -> & -> & C & _). exfalso. unfold add_lifetime_to_pinned_reference in AP. cbn in AP.
    destruct C as [-> | ->]; discriminate.
  - apply PIN in B as (c & m & l & e & more & -> & -> & -> & C & <-). unfold add_lifetime_to_pinned_reference in AP. cbn in AP.
    destruct C as [-> | ->]; cbn in AP; destruct args as [|[] args]; try discriminate; injection AP as <- <- <- <-; reflexivity.
Qed.
Print Assumptions c28_shared.

(** C28: when the lifetime is declared although no reference wrapper calls for it, the result borrows for it:
    declared, it is the lifetime which ties the result to the parameters. (A C++ class called [std], [core]
    or [pin] could pass for the beginning of the path of [Pin].) *)
Theorem c28_tied : forall np details receiver ps rt ret_conv sg,
  add_explicit_lifetime_if_necessary np details receiver ps rt ret_conv = Some sg ->
  sg_lt sg = true ->
  (forall d, In d details -> pol_rust (a_conv d) <> RcFromReferenceWrapperToPointer) ->
  (forall p, ret_conv = Some p -> pol_rust p <> RcFromPointerToReferenceWrapper) ->
  (forall lead id args, rt = Some (RTy (TPath lead id args)) -> ~ In id ["std"; "core"; "pin"]) ->
  exists t, sg_ret sg = Some t /\ borrows_for t (Some "'a").
Proof.
  intros np details receiver ps rt rc sg H L ND NR NI. unfold add_explicit_lifetime_if_necessary in H.
  destruct (reference_parameter_is_non_pod_reference np receiver ps) as [b1|]; [|discriminate].
  destruct (return_type_is_pod_or_known_type_reference np rt) as [b2|]; [|discriminate].
  match type of H with (if ?c then _ else _) = _ => destruct c end; [injection H as <-; discriminate|].
  destruct (ret_with_lifetime rt) as [| |t] eqn:R; [discriminate| |].
  - exfalso. injection H as <-. cbn [sg_lt] in L. apply orb_true_iff in L as [L|L].
    + destruct rc as [p|]; [|discriminate]. specialize (NR p eq_refl). destruct (pol_rust p); congruence.
    + apply existsb_exists in L as (d & I & L). specialize (ND d I). destruct (pol_rust (a_conv d)); congruence.
  - destruct (params_with_lifetime ps) as [ps'|]; [|discriminate]. injection H as <-. exists t. split; [reflexivity|].
    unfold ret_with_lifetime in R. destruct rt as [[ty|tr a l]|]; try discriminate; [|injection R as <-; reflexivity].
    destruct ty as [lead id args|m l e| | | |]; try discriminate; [|injection R as <-; reflexivity].
    destruct (add_lifetime_to_pinned_reference lead id args) as [| |args'] eqn:AP; try discriminate. injection R as <-.
    specialize (NI _ _ _ eq_refl). unfold add_lifetime_to_pinned_reference in AP.
    destruct lead as [|c [|c2 lead]]; cbn [app] in AP.
    + exfalso. destruct (String.eqb_spec id "std") as [->|]; [apply NI; cbn; auto|].
      destruct (String.eqb_spec id "core") as [->|]; [apply NI; cbn; auto|discriminate].
    + exfalso. destruct (negb (String.eqb c "std" || String.eqb c "core")); [discriminate|].
      destruct (String.eqb_spec id "pin") as [->|]; [apply NI; cbn; auto|discriminate].
    + destruct (String.eqb c "std" || String.eqb c "core") eqn:C; [|discriminate]. cbn [negb] in AP.
      destruct (String.eqb_spec c2 "pin") as [->|]; [|discriminate]. cbn [negb] in AP.
      destruct lead as [|c3 lead]; cbn [app] in AP.
      * destruct (String.eqb_spec id "Pin") as [->|]; [|discriminate]. cbn [negb] in AP.
        destruct args as [|[] args]; try discriminate. injection AP as <-. cbn. split; [|reflexivity].
        apply orb_true_iff in C as [C|C]; apply String.eqb_eq in C; auto.
      * destruct (String.eqb c3 "Pin"); [|discriminate]. cbn [negb] in AP. destruct lead; discriminate.
Qed.
Print Assumptions c28_tied.
Example c28_tied_case : exists sg,
  add_explicit_lifetime_if_necessary [QN [] "A"] [] true [WP false "a" (RTy (TRef false None (TPath [] "A" [])))]
    (Some (RTy (TRef false None (TPath [] "u8" [])))) None = Some sg
  /\ sg_lt sg = true /\ sg_ret sg = Some (RTy (TRef false (Some "'a") (TPath [] "u8" []))).
Proof. eexists. split; [vm_compute; reflexivity|]. split; reflexivity. Qed.

(** Under the policy which wraps references, the lifetime of the result is declared but no parameter carries it:
    [const A& f(const A& a)] becomes [fn f<'a>(a: CppRef<A>) -> CppLtRef<'a, A>], which the caller may use for
    any lifetime at all. *)
Theorem c28_wrapped_result_refuted : exists fn st' fa nm o w t,
  run [] ReferencesWrapped fn = (st', OOk (fa, nm)) /\ gen_function [QN [] "A"] fa = Some o /\ o_wrapper o = Some w /\
  rf_unsafe w = false /\ sg_ret (rf_sig w) = Some t /\ rty_mentions_a t = true /\ sg_params (rf_sig w) <> [] /\
  forall p, In p (sg_params (rf_sig w)) -> rty_mentions_a (wp_type p) = false.
Proof.
  exists (plain_fn "f" [("a", lref false class_A)] (Some (lref false class_A))). vm_compute. do 6 eexists.
  repeat (split; [reflexivity|]). split; [discriminate|]. intros p [<-|[]]. reflexivity.
Qed.
Print Assumptions c28_wrapped_result_refuted.

(** A case meeting the hypotheses of the theorems: the workaround for references to a builtin type. *)
Example c28_case : exists st' fa nm o b,
  run [] AllFunctionsSafe (plain_fn "f" [("a", lref false class_A)] (Some (lref false byte))) = (st', OOk (fa, nm)) /\
  gen_function [QN [] "A"] fa = Some o /\ o_bridge o = Some b /\ no_lifetimes fa /\ sig_mentions_a (rf_sig b) = true /\ sg_lt (rf_sig b) = true.
Proof.
  do 5 eexists. split; [vm_compute; reflexivity|]. split; [vm_compute; reflexivity|]. split; [reflexivity|]. split; [|split; reflexivity].
  split; [|split; [|split]].
  - intros p I. cbn in I. destruct I as [<-|[]]. reflexivity.
  - intros t E. injection E as <-. reflexivity.
  - intros d I. cbn in I. destruct I as [<-|[]]. split; [reflexivity|discriminate].
  - intros p E. injection E as <-. reflexivity.
Qed.
(** And statements of all three sorts. *)
Example c27_case : let items := [Normal (KLet "x" (KHandler "h")); Binary (KLet "x" (KUnsafe [KPinNew "x"])) (KLet "x" (KPinNew "x"));
    NeedsUnsafe (KPopulate "x" (KVar "a")); NeedsUnsafe (KCall "f" [KGetPtr "x"])] in
  Forall (well_marked true) items /\ Forall (lean_marked true) items /\ Forall fair items /\
  maybe_unsafes_to_tokens items false = [KLet "x" (KHandler "h"); KLet "x" (KUnsafe [KPinNew "x"]); KUnsafe [KPopulate "x" (KVar "a"); KCall "f" [KGetPtr "x"]]].
Proof.
  cbn zeta. split; [repeat constructor|]. split; [|split; [|reflexivity]].
  - constructor; [split; repeat constructor|]. constructor; [split; [constructor; constructor; [discriminate|constructor; [split; [intros G; inversion G|constructor]|constructor]]|repeat constructor]|].
    constructor; [split; [intros G; inversion G|repeat constructor]|]. constructor; [|constructor].
    split; [intros G; inversion G as [| | | | | | | | | |b f args UB F| | | |]; subst; discriminate (UB eq_refl)|repeat constructor].
  - constructor; [exact I|]. constructor; [intros e; cbn; destruct (look e "x"); reflexivity|]. constructor; [intros e; reflexivity|].
    constructor; [intros e; reflexivity|constructor].
Qed.
