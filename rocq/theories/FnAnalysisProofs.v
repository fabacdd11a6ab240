(** Lemmas about FnAnalysisModel and FnCodegenModel. *)
From Verif Require Import Base ApiModel TypesModel NameCheckModel KnownTypesModel TypeConverterModel TypeConverterProofs TypeConverterProps
  SynthNamesModel ConversionModel UnqualifyModel FnAnalysisModel FnCodegenModel.

Lemma bind_ok {A B} (m : M A) (f : A -> M B) st st' b : bind m f st = (st', OOk b) ->
  exists st1 a, m st = (st1, OOk a) /\ f a st1 = (st', OOk b).
Proof. unfold bind. destruct (m st) as [st1 [a|e| |]]; intros H; try discriminate. eauto. Qed.
Lemma catch_ok {A} (m : M A) st st' r : catch m st = (st', OOk r) ->
  (exists a, m st = (st', OOk a) /\ r = Ok a) \/ (exists e, m st = (st', OErr e) /\ r = Err e).
Proof. unfold catch. destruct (m st) as [st1 [a|e| |]]; intros H; try discriminate; injection H as <- <-; eauto. Qed.
Lemma ret_ok {A} (a b : A) st st' : ret a st = (st', OOk b) -> st' = st /\ b = a.
Proof. unfold ret. intros H. injection H as <- <-. auto. Qed.
Lemma of_option_ok {A} (o : option A) st st' a : of_option o st = (st', OOk a) -> o = Some a /\ st' = st.
Proof. destruct o; cbn; intros H; [|discriminate]. injection H as <- <-. auto. Qed.

(** Invert one [bind]. *)
Ltac binv H x H1 := let st := fresh "st" in apply bind_ok in H as (st & x & H1 & H).

Definition is_some {A} (o : option A) : bool := match o with Some _ => true | None => false end.

Lemma this_details_ok vt t st st' t' s : this_details vt t st = (st', OOk (t', s)) ->
  exists m e e', t = TPtr m e /\ t' = TPtr m e' /\ snd s = (if m then MMutable else MConst).
Proof.
  unfold this_details. destruct t as [| |m [lead id args| | | | |] | | |]; try discriminate.
  destruct (match unwrap_marker opaque_marker lead id args with Some (TPath l i _) => (l, i) | _ => (lead, id) end) as [l i].
  intros H. destruct vt as [v|].
  - apply ret_ok in H as [-> H]. injection H as -> ->. eauto 6.
  - binv H q H1. apply ret_ok in H as [-> H]. injection H as -> ->. eauto 6.
Qed.

(** What a converted argument is. *)
Record arg_spec (env : fn_env) (ns : list string) (this_ref is_move : bool) (force : option rust_conv) (soph : sophistication)
    (ctor : bool) (n : string) (t : ty) (p : (string * ty) * arg) (an : annotated) (t' : ty) : Prop := {
  as_conv : exists cs cs', convert_type (fe_fuel env) (fe_tc env) ns cs OuterType t' = (cs', OOk an);
  as_self : a_self (snd p) <> None <-> n = "this";
  as_this : n = "this" -> exists m e e', t = TPtr m e /\
      t' = (if this_ref then TPath [] "__bindgen_marker_Reference" [TPtr m e'] else TPtr m e') /\
      exists q, a_self (snd p) = Some (q, if m then MMutable else MConst);
  as_other : n <> "this" -> t' = t /\ validate env n = VOk /\ a_name (snd p) = n;
  as_placement : a_placement (snd p) = (is_some (a_self (snd p)) && ctor)
      || (match force with Some RcFromPlacementParamToNewReturn => true | _ => false end);
  as_policy : argument_conversion_details env an is_move force soph (is_some (a_self (snd p))) (a_placement (snd p)) = Some (a_conv (snd p));
  as_type : snd (fst p) = ann_ty an;
  as_name : fst (fst p) = a_name (snd p);
  as_self_name : n = "this" -> a_name (snd p) = (if this_ref then "self" else "this");
  as_life : a_lifetime (snd p) = match ann_kind an with TkReference | TkMutableReference => true | _ => false end;
  as_mut : a_mutref (snd p) = match ann_kind an with TkMutableReference => true | _ => false end;
  as_deps : a_deps (snd p) = ann_deps an;
  as_unsafe : a_unsafe (snd p) =
      if (match ann_kind an with TkPointer => true | _ => false end) && negb (a_placement (snd p)) then UAlways
      else if bridge_unsafe_needed (a_conv (snd p)) || a_placement (snd p) then UJustBridge else UNone
}.

Lemma convert_boxed_ok env ns t st st' an : convert_boxed_type env ns t st = (st', OOk an) ->
  exists cs', convert_type (fe_fuel env) (fe_tc env) ns (fs_concretes st) OuterType t = (cs', OOk an).
Proof.
  unfold convert_boxed_type. destruct (convert_type _ _ _ _ _ _) as [cs [a|e| |]]; intros H; try discriminate.
  injection H as <- <-. eauto.
Qed.

Lemma convert_fn_arg_ok env ns vt this_ref is_move force soph ctor n t st st' p :
  convert_fn_arg env ns vt this_ref is_move force soph ctor n t st = (st', OOk p) ->
  exists an t', arg_spec env ns this_ref is_move force soph ctor n t p an t'.
Proof.
  unfold convert_fn_arg. intros H. apply bind_ok in H as (st1 & [[n' t'] self] & H1 & H).
  apply bind_ok in H as (st2 & an & H2 & H). apply bind_ok in H as (st3 & conv & H3 & H).
  apply of_option_ok in H3 as [H3 ->]. apply ret_ok in H as [-> ->].
  apply convert_boxed_ok in H2 as (cs' & H2). exists an, t'.
  assert (CASES : (n = "this" /\ exists m e e' q, t = TPtr m e /\ t' = (if this_ref then TPath [] "__bindgen_marker_Reference" [TPtr m e'] else TPtr m e') /\
                     n' = (if this_ref then "self" else "this") /\ self = Some (q, if m then MMutable else MConst))
                  \/ (n <> "this" /\ n' = n /\ t' = t /\ self = None /\ validate env n = VOk)).
  { destruct (String.eqb_spec n "this") as [->|N].
    - apply bind_ok in H1 as (st4 & [t1 s] & H1 & H4). apply ret_ok in H4 as [-> H4]. injection H4 as -> -> ->.
      apply this_details_ok in H1 as (m & e & e' & -> & -> & S). left. split; [reflexivity|].
      exists m, e, e', (fst s). destruct s as [q mu]. cbn in S. subst mu. repeat split; auto.
    - apply bind_ok in H1 as (st4 & u & H1 & H4). apply ret_ok in H4 as [-> H4]. injection H4 as -> -> ->.
      right. repeat split; auto. unfold of_verdict in H1. destruct (validate env n); [reflexivity|discriminate|discriminate]. }
  constructor; cbn [snd fst a_self a_placement a_conv a_name a_lifetime a_mutref a_deps a_unsafe]; eauto.
  - destruct CASES as [(-> & m & e & e' & q & _ & _ & _ & ->)|(N & _ & _ & -> & _)]; split; intros; congruence.
  - intros ->. destruct CASES as [(_ & m & e & e' & q & -> & -> & _ & ->)|(N & _)]; [|congruence]. exists m, e, e'. eauto.
  - intros N. destruct CASES as [(-> & _)|(_ & -> & -> & _ & V)]; [congruence|auto].
  - destruct self; reflexivity.
  - intros ->. destruct CASES as [(_ & m & e & e' & q & _ & _ & -> & _)|(N & _)]; [reflexivity|congruence].
Qed.

(** Every converted parameter comes from its input; there is an error for every other one. *)
Lemma convert_params_ok env fn ns soph : forall inputs st st' ps bads,
  convert_params env fn ns soph inputs st = (st', OOk (ps, bads)) ->
  (forall p, In p ps -> exists n t st1 st2, In (n, t) inputs /\
     convert_fn_arg env ns (f_this fn) true false None soph false n t st1 = (st2, OOk p)) /\
  (forall n t, In (n, t) inputs ->
     (exists p st1 st2, In p ps /\ convert_fn_arg env ns (f_this fn) true false None soph false n t st1 = (st2, OOk p)) \/
     (exists e st1 st2, In e bads /\ convert_fn_arg env ns (f_this fn) true false None soph false n t st1 = (st2, OErr e))) /\
  (bads = [] -> Forall2 (fun i p => exists st1 st2,
     convert_fn_arg env ns (f_this fn) true false None soph false (fst i) (snd i) st1 = (st2, OOk p)) inputs ps).
Proof.
  induction inputs as [|[n t] rest IH]; intros st st' ps bads H.
  - apply ret_ok in H as [-> H]. injection H as -> ->. repeat split; try (intros; contradiction). constructor.
  - cbn [convert_params] in H. apply bind_ok in H as (st1 & r & H1 & H).
    apply bind_ok in H as (st2 & [ps1 bads1] & H2 & H). apply ret_ok in H as [-> H].
    destruct (IH _ _ _ _ H2) as (I1 & I2 & I3).
    apply catch_ok in H1 as [(p & H1 & ->)|(e & H1 & ->)]; injection H as -> ->.
    + repeat split.
      * intros p' [<-|I]; [exists n, t, st, st1; split; [left; reflexivity|exact H1]|].
        destruct (I1 _ I) as (n' & t' & s1 & s2 & I' & C). exists n', t', s1, s2. split; [right; exact I'|exact C].
      * intros n' t' [E|I].
        -- injection E as <- <-. left. exists p, st, st1. split; [left; reflexivity|exact H1].
        -- destruct (I2 _ _ I) as [(p' & s1 & s2 & I' & C)|(e & s1 & s2 & I' & C)]; [left|right].
           ++ exists p', s1, s2. split; [right; exact I'|exact C].
           ++ exists e, s1, s2. auto.
      * intros B. constructor; [exists st, st1; exact H1|exact (I3 B)].
    + repeat split.
      * intros p' I. destruct (I1 _ I) as (n' & t' & s1 & s2 & I' & C). exists n', t', s1, s2. split; [right; exact I'|exact C].
      * intros n' t' [E|I].
        -- injection E as <- <-. right. exists e, st, st1. split; [left; reflexivity|exact H1].
        -- destruct (I2 _ _ I) as [(p' & s1 & s2 & I' & C)|(e' & s1 & s2 & I' & C)]; [left|right].
           ++ exists p', s1, s2. auto.
           ++ exists e', s1, s2. split; [right; exact I'|exact C].
      * discriminate.
Qed.

Lemma In_set_nth {A} i (x y : A) l : In y (set_nth i x l) -> y = x \/ In y l.
Proof.
  unfold set_nth. intros H. apply in_app_or in H as [H|[H|H]]; auto.
  - right. rewrite <- (firstn_skipn i l); apply in_or_app; auto.
  - right. rewrite <- (firstn_skipn (S i) l). apply in_or_app. auto.
Qed.

Lemma reanalyze_ok env fn ns idx force soph ctor mv ps st st' ps' :
  reanalyze env fn ns idx force soph ctor mv ps st = (st', OOk ps') ->
  exists n t p, nth_error (f_inputs fn) idx = Some (n, t) /\ idx < List.length ps /\ ps' = set_nth idx p ps /\
    convert_fn_arg env ns (f_this fn) false mv force soph ctor n t st = (st', OOk p).
Proof.
  unfold reanalyze. intros H. apply bind_ok in H as (s1 & [n t] & H1 & H). apply of_option_ok in H1 as [H1 ->].
  apply bind_ok in H as (s2 & p & H2 & H). destruct (idx <? List.length ps) eqn:L; [|discriminate].
  apply ret_ok in H as [-> ->]. apply Nat.ltb_lt in L. exists n, t, p. auto.
Qed.
Lemma keep_going_ok ig ps m st st' ig' ps' : keep_going ig ps m st = (st', OOk (ig', ps')) ->
  (ig' = ig /\ m st = (st', OOk ps')) \/ ((exists e, ig' = Some e /\ m st = (st', OErr e)) /\ ps' = ps).
Proof.
  unfold keep_going. intros H. apply bind_ok in H as (s1 & r & H1 & H). apply ret_ok in H as [-> H].
  apply catch_ok in H1 as [(a & H1 & ->)|(e & H1 & ->)]; injection H as -> ->; eauto.
Qed.

(** How a parameter analysed again was analysed. *)
Definition again (kind : fn_kind) (idx : nat) (force : option rust_conv) (ctor mv : bool) : Prop :=
  match kind with
  | FMethod (MConstructor _) _ => idx = 0 /\ force = None /\ ctor = true /\ mv = false
  | FTraitMethod TDestructor _ => idx = 0 /\ force = Some RcFromTypeToPtr /\ ctor = false /\ mv = false
  | FTraitMethod TCopyConstructor _ => idx = 0 /\ force = Some RcFromPinMaybeUninitToPtr /\ ctor = false /\ mv = false
  | FTraitMethod TMoveConstructor _ =>
      ctor = false /\ ((idx = 0 /\ force = Some RcFromPinMaybeUninitToPtr /\ mv = false) \/
                       (idx = 1 /\ force = Some RcFromPinMoveRefToPtr /\ mv = true))
  | _ => False
  end.

Lemma fix_receiver_in env fn ns soph kind ps st st' ig ps' :
  fix_receiver env fn ns soph kind ps st = (st', OOk (ig, ps')) ->
  forall p, In p ps' -> In p ps \/ exists idx force ctor mv n t s1 s2,
    again kind idx force ctor mv /\ nth_error (f_inputs fn) idx = Some (n, t) /\
    convert_fn_arg env ns (f_this fn) false mv force soph ctor n t s1 = (s2, OOk p).
Proof.
  unfold fix_receiver. intros H p I.
  assert (ONE : forall ig0 qs idx force ctor mv s s', keep_going ig0 qs (reanalyze env fn ns idx force soph ctor mv qs) s = (s', OOk (ig, ps')) ->
    again kind idx force ctor mv -> In p qs \/ exists idx force ctor mv n t s1 s2,
    again kind idx force ctor mv /\ nth_error (f_inputs fn) idx = Some (n, t) /\
    convert_fn_arg env ns (f_this fn) false mv force soph ctor n t s1 = (s2, OOk p)).
  { intros ig0 qs idx force ctor mv s s' K A. apply keep_going_ok in K as [[_ K]|[_ ->]]; [|auto].
    apply reanalyze_ok in K as (n & t & q & N & L & -> & C). apply In_set_nth in I as [->|I]; [|auto].
    right. exists idx, force, ctor, mv, n, t, s, s'. auto. }
  destruct kind as [|mk q|tk q]; [apply ret_ok in H as [_ H]; injection H as -> ->; auto| |].
  - destruct mk; try (apply ret_ok in H as [_ H]; injection H as -> ->; auto; fail).
    apply (ONE _ _ _ _ _ _ _ _ H). cbn. auto.
  - destruct tk; try (apply ret_ok in H as [_ H]; injection H as -> ->; auto; fail).
    + apply (ONE _ _ _ _ _ _ _ _ H). cbn. auto.
    + apply bind_ok in H as (s1 & [ig1 ps1] & H1 & H). destruct (ONE _ _ _ _ _ _ _ _ H) as [I1|R]; [cbn; auto| |auto].
      apply keep_going_ok in H1 as [[_ K]|[_ ->]]; [|auto].
      apply reanalyze_ok in K as (n & t & q0 & N & L & -> & C). apply In_set_nth in I1 as [->|I1]; [|auto].
      right. eexists 0, _, _, _, n, t, _, _. split; [|split; [exact N|exact C]]. cbn. auto.
    + apply (ONE _ _ _ _ _ _ _ _ H). cbn. auto.
Qed.

(** The pieces of an analysis. *)
Record pieces (env : fn_env) (name : api_name) (fn : func) (soph : sophistication) (pre : option string) (fa : fn_analysis)
    (ps0 : list ((string * ty) * arg)) (bads : list cpp_error) (ig0 : option cpp_error) (ps1 : list ((string * ty) * arg))
    (r : ret_an) (ig2 : option cpp_error) (bridge0 : string) (keyword : bool) : Prop := {
  pc_params : exists s1 s2, convert_params env fn (qn_ns (an_name name)) soph (f_inputs fn) s1 = (s2, OOk (ps0, bads));
  pc_kind : exists s1 s2 ideal self_ty receiver ctx,
    let self := hd_error (flat_map (fun p => match a_self (snd p) with Some s => [s] | None => [] end) ps0) in
    self_ty = (match self with Some (q, _) => Some q | None => f_self_ty fn end) /\
    receiver = (match self with Some (_, m) => Some m | None => None end) /\
    fn_kind_and_name env fn (qn_ns (an_name name)) pre ideal
      (match self with Some _ => false | None => match f_self_ty fn with Some _ => true | None => false end end)
      self_ty receiver
      (match nth_error ps0 1 with
       | Some (_, a) => match pol_type (a_conv a) with TRef _ _ _ => true | _ => false end
       | None => false
       end) s1 = (s2, OOk (fa_kind fa, ctx, fa_rust fa));
  pc_receiver : exists s1 s2, fix_receiver env fn (qn_ns (an_name name)) soph (fa_kind fa) ps0 s1 = (s2, OOk (ig0, ps1));
  pc_return : exists s1 s2,
    (convert_return_type env (qn_ns (an_name name)) soph (f_output fn) s1 = (s2, OOk r) /\
     ig2 = check_unsupported env fn (fa_kind fa) bads ig0) \/
    (exists e, convert_return_type env (qn_ns (an_name name)) soph (f_output fn) s1 = (s2, OErr e) /\
       r = ret_default /\ ig2 = Some e);
  pc_details : fa_details fa = map snd (ps1 ++ match r_placement r with Some p => [p] | None => [] end);
  pc_unsafe : fa_unsafe fa = should_be_unsafe env (fa_details fa) (fa_kind fa);
  pc_ignore : fa_ignore fa = None <-> check_references r (fa_details fa) ig2 = None /\ validate env (fa_bridge fa) = VOk;
  pc_external : fa_external fa = match f_vis fn with VisPublic => true | _ => false end;
  pc_ret_conv : fa_ret_conv fa = r_conv r;
  pc_wrapper : is_some (fa_wrapper fa) = cpp_wrapper_needed env fn (fa_kind fa) bridge0 (fa_rust fa) (fa_details fa) (r_conv r) keyword;
  pc_bridge : fa_bridge fa = (if is_some (fa_wrapper fa) then TrackersModel.wrapper_name (fe_hash env) bridge0 else bridge0);
  pc_fa_params : fa_params fa =
    if is_some (fa_wrapper fa) then
      map (fun pd => (match a_self pd with Some _ => "autocxx_gen_this" | None => a_name pd end, converted_rust_type (a_conv pd))) (fa_details fa)
    else map fst (ps1 ++ match r_placement r with Some p => [p] | None => [] end);
  pc_ret : fa_ret fa =
    if is_some (fa_wrapper fa) then
      match r_conv r with
      | Some p => if populate_return_value p then Some (unconverted_rust_type p) else r_type r
      | None => r_type r
      end
    else r_type r;
  pc_rust_wrapper : fa_rust_wrapper fa = rust_wrapper_needed env (fa_kind fa) (fa_bridge fa) (fa_rust fa) (fa_details fa) (r_conv r);
  pc_cpp : forall w, fa_wrapper fa = Some w ->
    (cf_payload w, cf_kind w) = wrapper_payload fn (qn_ns (an_name name)) (fa_kind fa) (match an_cpp name with Some c => c | None => fa_rust fa end) /\
    cf_args w = map a_conv (fa_details fa) /\ cf_ret w = fa_ret_conv fa /\ cf_wrapper_name w = fa_bridge fa;
  pc_deps : fa_deps fa = flat_map (fun p => a_deps (snd p)) ps0 ++ r_deps r;
  pc_keyword : match an_cpp name with Some c => keyword = tc_reserved (fe_tc env) c | None => keyword = false end;
  (** The first steps once more, with the states between them. *)
  pc_linked : exists s1 s2 s3 s4 s5 ideal static self_ty receiver second ctx,
    self_ty = (match hd_error (flat_map (fun p => match a_self (snd p) with Some s => [s] | None => [] end) ps0) with
               | Some (q, _) => Some q
               | None => f_self_ty fn
               end) /\
    convert_params env fn (qn_ns (an_name name)) soph (f_inputs fn) s1 = (s2, OOk (ps0, bads)) /\
    ideal_rust_name env (an_cpp name) (f_ident fn) s2 = (s3, OOk ideal) /\
    fn_kind_and_name env fn (qn_ns (an_name name)) pre ideal static self_ty receiver second s3 = (s4, OOk (fa_kind fa, ctx, fa_rust fa)) /\
    fix_receiver env fn (qn_ns (an_name name)) soph (fa_kind fa) ps0 s4 = (s5, OOk (ig0, ps1)) /\
    forall e c, fa_ignore fa = Some (e, c) -> c = ctx
}.

Lemma analyze_ok env name fn soph pre st st' fa nm :
  analyze_foreign_fn env name fn soph pre st = (st', OOk (fa, nm)) ->
  nm = AN (QN (qn_ns (an_name name)) (fa_bridge fa)) (an_cpp name) /\
  exists ps0 bads ig0 ps1 r ig2 bridge0 keyword, pieces env name fn soph pre fa ps0 bads ig0 ps1 r ig2 bridge0 keyword.
Proof.
  unfold analyze_foreign_fn. intros H.
  apply bind_ok in H as (s1 & u1 & _ & H).
  apply bind_ok in H as (s2 & [ps0 bads] & HP & H).
  apply bind_ok in H as (s3 & ideal & HI & H).
  apply bind_ok in H as (s4 & [[kind ctx] rust] & HK & H).
  apply bind_ok in H as (s5 & [ig0 ps1] & HR & H).
  apply bind_ok in H as (s6 & bridge0 & _ & H).
  apply bind_ok in H as (s7 & rr & HT & H).
  destruct (match rr with Ok r => (check_unsupported env fn kind bads ig0, r) | Err e => (Some e, ret_default) end) as [ig2 r] eqn:RR.
  apply bind_ok in H as (s8 & keyword & HW & H).
  set (details := map snd (ps1 ++ match r_placement r with Some p => [p] | None => [] end)) in *.
  destruct (cpp_wrapper_needed env fn kind bridge0 rust details (r_conv r) keyword) eqn:NEED.
  - destruct (wrapper_payload fn (qn_ns (an_name name)) kind match an_cpp name with Some c => c | None => rust end) as [payload ck] eqn:PL.
    apply bind_ok in H as (s9 & v & HV & H). apply ret_ok in H as [-> H]. injection H as -> ->.
    split; [reflexivity|].
    exists ps0, bads, ig0, ps1, r, ig2, bridge0, keyword. constructor; cbn [fa_kind fa_rust fa_details fa_unsafe fa_ignore fa_external fa_ret_conv fa_wrapper fa_bridge fa_params fa_ret fa_rust_wrapper fa_deps is_some]; auto.
    + eauto.
    + do 6 eexists. split; [reflexivity|]. split; [reflexivity|]. exact HK.
    + eauto.
    + exists s6, s7. apply catch_ok in HT as [(x & HT & ->)|(e & HT & ->)]; injection RR as <- <-; eauto.
    + apply catch_ok in HV as [(x & HV & ->)|(e & HV & ->)].
      * unfold of_verdict in HV. destruct (validate env _); [|discriminate|discriminate].
        destruct (check_references r details ig2); split; try discriminate; auto. intros [E _]. discriminate.
      * unfold of_verdict in HV. destruct (validate env _); [discriminate| |discriminate].
        split; [discriminate|]. intros [_ E]. discriminate.
    + intros w E. injection E as <-. cbn. auto.
    + destruct (an_cpp name) as [c|]; [|apply ret_ok in HW as [_ ->]; reflexivity].
      unfold rust_keyword in HW. destruct (tc_lexes (fe_tc env) c); [|discriminate]. apply ret_ok in HW as [_ ->]. reflexivity.
    + do 11 eexists. split; [reflexivity|]. split; [exact HP|]. split; [exact HI|]. split; [exact HK|]. split; [exact HR|].
      intros e c. destruct v; [|congruence]. destruct (check_references _ _ _); [congruence | discriminate].
  - apply bind_ok in H as (s9 & v & HV & H). apply ret_ok in H as [-> H]. injection H as -> ->.
    split; [reflexivity|].
    exists ps0, bads, ig0, ps1, r, ig2, bridge0, keyword. constructor; cbn [fa_kind fa_rust fa_details fa_unsafe fa_ignore fa_external fa_ret_conv fa_wrapper fa_bridge fa_params fa_ret fa_rust_wrapper fa_deps is_some]; auto.
    + eauto.
    + do 6 eexists. split; [reflexivity|]. split; [reflexivity|]. exact HK.
    + eauto.
    + exists s6, s7. apply catch_ok in HT as [(x & HT & ->)|(e & HT & ->)]; injection RR as <- <-; eauto.
    + apply catch_ok in HV as [(x & HV & ->)|(e & HV & ->)].
      * unfold of_verdict in HV. destruct (validate env _); [|discriminate|discriminate].
        destruct (check_references r details ig2); split; try discriminate; auto. intros [E _]. discriminate.
      * unfold of_verdict in HV. destruct (validate env _); [discriminate| |discriminate].
        split; [discriminate|]. intros [_ E]. discriminate.
    + intros w E. discriminate.
    + destruct (an_cpp name) as [c|]; [|apply ret_ok in HW as [_ ->]; reflexivity].
      unfold rust_keyword in HW. destruct (tc_lexes (fe_tc env) c); [|discriminate]. apply ret_ok in HW as [_ ->]. reflexivity.
    + do 11 eexists. split; [reflexivity|]. split; [exact HP|]. split; [exact HI|]. split; [exact HK|]. split; [exact HR|].
      intros e c. destruct v; [|congruence]. destruct (check_references _ _ _); [congruence | discriminate].
Qed.

(** * Unsafety *)
Lemma unsafe_step_keep b acc a : acc <> UNone -> unsafe_step b acc a <> UNone.
Proof. intros H. unfold unsafe_step. destruct acc; [congruence| |congruence]. destruct (_ && b); destruct (a_unsafe a); congruence. Qed.
Lemma unsafe_fold_keep b l : forall acc, acc <> UNone -> fold_left (unsafe_step b) l acc <> UNone.
Proof. induction l as [|x l IH]; cbn; auto using unsafe_step_keep. Qed.
Lemma unsafe_fold_some b l a : In a l -> a_unsafe a <> UNone -> forall acc, fold_left (unsafe_step b) l acc <> UNone.
Proof.
  induction l as [|x l IH]; cbn; [tauto|]. intros [->|I] U acc; [|auto]. apply unsafe_fold_keep.
  unfold unsafe_step. destruct acc; [| |congruence]; destruct (_ && b); destruct (a_unsafe a); congruence.
Qed.
Lemma unsafe_fold_always b l : fold_left (unsafe_step b) l UAlways = UAlways.
Proof. induction l; cbn; auto. Qed.
Lemma unsafe_fold_has b l a : In a l -> a_unsafe a = UAlways -> a_self a = None -> a_placement a = false ->
  forall acc, fold_left (unsafe_step b) l acc = UAlways.
Proof.
  induction l as [|x l IH]; cbn; [tauto|]. intros [->|I] U S P acc; [|auto].
  unfold unsafe_step at 2. rewrite U, S, P. cbn. destruct acc; apply unsafe_fold_always.
Qed.
Lemma should_be_unsafe_some env l a kind : In a l -> a_unsafe a <> UNone -> should_be_unsafe env l kind <> UNone.
Proof.
  intros I U. assert (T := unsafe_fold_some true l a I U UNone). assert (F := unsafe_fold_some false l a I U UNone).
  unfold should_be_unsafe, from_param_details. destruct kind as [|mk q|tk q].
  3: destruct tk; destruct (fold_left (unsafe_step false) l UNone); congruence.
  all: destruct (fe_policy env), (fold_left (unsafe_step true) l UNone), (fold_left (unsafe_step false) l UNone); congruence.
Qed.
Lemma should_be_unsafe_always env l a kind : In a l -> a_unsafe a = UAlways -> a_self a = None -> a_placement a = false ->
  (forall tk q, kind <> FTraitMethod tk q) -> should_be_unsafe env l kind = UAlways.
Proof.
  intros I U S P K. assert (T := unsafe_fold_has true l a I U S P UNone).
  unfold should_be_unsafe, from_param_details. rewrite T. destruct kind as [|mk q|tk q]; [| |destruct (K tk q eq_refl)];
    destruct (fe_policy env); reflexivity.
Qed.

(** A pointer in a wrapper's signature is an unconverted parameter. *)
Lemma visible_pointer p var k k' m e l c u : rust_conversion p var k = Some (k', RParam (RTy (TPtr m e)) l c u) ->
  pol_rust p = RcNone /\ converted_rust_type p = TPtr m e.
Proof.
  unfold rust_conversion. destruct (pol_rust p); try discriminate; try (destruct (pol_type p); discriminate).
  intros H. injection H as _ H _ _ _. auto.
Qed.

Lemma details_cases env an mv force soph self pl pol :
  argument_conversion_details env an mv force soph self pl = Some pol ->
  (exists h sub, ann_kind an = TkSubclassHolder h /\ from_holder_name h = Some sub /\
     pol = Policy (TPath ["rust"] "Box" [TPath [] h []]) CcMove (RcToBoxedUpHolder sub)) \/
  (force = Some RcFromPlacementParamToNewReturn /\ soph = Regular /\
     pol = Policy (ann_ty an) CcIgnoredPlacementPtrParameter RcFromPlacementParamToNewReturn) \/
  general_conversion env an mv force soph self pl = Some pol.
Proof.
  unfold argument_conversion_details. destruct (ann_kind an) as [| |h| | |] eqn:K.
  3: { destruct (from_holder_name h) as [sub|] eqn:F; [|discriminate]. intros H. injection H as <-. left. eauto. }
  all: right; destruct force as [[]|]; try (right; assumption); destruct soph; try (right; assumption); injection H as <-; auto.
Qed.

Ltac policy_cases H :=
  repeat match type of H with
         | context [if ?b then _ else _] => destruct b
         | context [match extract_type_from_pinned_mut_ref ?x with _ => _ end] => destruct (extract_type_from_pinned_mut_ref x)
         | context [match path_name ?x ?y with _ => _ end] => destruct (path_name x y)
         | context [match ?x with Regular => _ | SimpleForSubclasses => _ end] => destruct x
         end; try discriminate.

Lemma policy_pointer env an force soph self pl pol m e :
  kind_describes (ann_kind an) (ann_ty an) ->
  argument_conversion_details env an false force soph self pl = Some pol -> force <> Some RcNone ->
  pol_rust pol = RcNone -> converted_rust_type pol = TPtr m e ->
  force = None /\ ann_kind an = TkPointer /\ exists m' e', ann_ty an = TPtr m' e'.
Proof.
  intros K H F R C. apply details_cases in H as [(h & sub & _ & _ & ->)|[(_ & _ & ->)|H]]; [discriminate|discriminate|].
  unfold general_conversion in H. destruct (ann_ty an) as [lead id args|mm lt x|mm x|x n|s|s] eqn:T.
  - exfalso. policy_cases H; injection H as <-; cbn in R, C; discriminate.
  - exfalso. policy_cases H; injection H as <-; cbn in R, C; discriminate.
  - assert (KK : ann_kind an = TkPointer \/ ann_kind an = TkRValueReference).
    { destruct (ann_kind an); cbn in K; auto; exfalso; [apply (K mm x); reflexivity| | |].
      - destruct K as (? & ? & ? & ? & ? & K). discriminate.
      - destruct K as (? & ? & ? & K). discriminate.
      - destruct K as (? & K). discriminate. }
    destruct KK as [KK|KK]; rewrite KK in H.
    + destruct force as [f|]; [|eauto]. exfalso. policy_cases H; injection H as <-; cbn in R; congruence.
    + exfalso. injection H as <-. discriminate.
  - exfalso. injection H as <-. discriminate.
  - exfalso. injection H as <-. discriminate.
  - exfalso. injection H as <-. discriminate.
Qed.

Lemma policy_bridge_pointer env an force soph self pl pol m e :
  kind_describes (ann_kind an) (ann_ty an) ->
  argument_conversion_details env an false force soph self pl = Some pol ->
  (force = Some RcFromPlacementParamToNewReturn -> pl = true) ->
  (ann_ty an = TPtr m e \/ converted_rust_type pol = TPtr m e) ->
  (ann_kind an = TkPointer \/ bridge_unsafe_needed pol = true \/ pl = true).
Proof.
  intros K H PL C. apply details_cases in H as [(h & sub & E & _ & ->)|[(E & _ & _)|H]]; [|auto|].
  { rewrite E in K. cbn in K. destruct K as (? & ? & ? & ? & ? & K). rewrite K in C. destruct C; discriminate. }
  unfold general_conversion in H. destruct (ann_ty an) as [lead id args|mm lt x|mm x|x n|s|s] eqn:T.
  - policy_cases H; injection H as <-; cbn; auto; cbn in C; destruct C; discriminate.
  - policy_cases H; injection H as <-; cbn; auto; cbn in C; destruct C; discriminate.
  - assert (KK : ann_kind an = TkPointer \/ ann_kind an = TkRValueReference).
    { destruct (ann_kind an); cbn in K; auto; exfalso; [apply (K mm x); reflexivity| | |].
      - destruct K as (? & ? & ? & ? & ? & K). discriminate.
      - destruct K as (? & ? & ? & K). discriminate.
      - destruct K as (? & K). discriminate. }
    destruct KK as [KK|KK]; [auto|]. rewrite KK in H. injection H as <-. cbn. auto.
  - injection H as <-. destruct C; discriminate.
  - injection H as <-. destruct C; discriminate.
  - injection H as <-. destruct C; discriminate.
Qed.

Lemma arg_bridge_pointer env ns tr force soph ctor n t p an t' m e :
  arg_spec env ns tr false force soph ctor n t p an t' ->
  (snd (fst p) = TPtr m e \/ converted_rust_type (a_conv (snd p)) = TPtr m e) -> a_unsafe (snd p) <> UNone.
Proof.
  intros A C. assert (K : kind_describes (ann_kind an) (ann_ty an)).
  { destruct (as_conv _ _ _ _ _ _ _ _ _ _ _ _ A) as (cs & cs' & CV). eapply c60_kind_describes_type; eauto. }
  rewrite (as_type _ _ _ _ _ _ _ _ _ _ _ _ A) in C.
  assert (P := policy_bridge_pointer _ _ _ _ _ _ _ m e K (as_policy _ _ _ _ _ _ _ _ _ _ _ _ A)).
  assert (PL : force = Some RcFromPlacementParamToNewReturn -> a_placement (snd p) = true).
  { intros ->. rewrite (as_placement _ _ _ _ _ _ _ _ _ _ _ _ A). apply orb_true_r. }
  rewrite (as_unsafe _ _ _ _ _ _ _ _ _ _ _ _ A). destruct (P PL C) as [Q|[Q|Q]]; rewrite Q.
  - destruct (a_placement (snd p)); cbn; [|congruence]. rewrite orb_true_r. congruence.
  - destruct (_ && negb (a_placement (snd p))); cbn; congruence.
  - rewrite orb_true_r. destruct (_ && negb true); cbn; congruence.
Qed.

Lemma param_parts_params avoid : forall details acc pa, param_parts avoid details acc = Some pa ->
  forall w, In w (pa_params pa) -> In w (pa_params acc) \/
    exists pd var k k' l c u, In pd details /\ a_placement pd = false /\
      rust_conversion (a_conv pd) var k = Some (k', RParam (wp_type w) l c u).
Proof.
  induction details as [|pd rest IH]; cbn; intros acc pa H w I.
  - injection H as <-. auto.
  - set (name := if _ && negb avoid then "self" else a_name pd) in H.
    destruct (rust_conversion (a_conv pd) (KVar name) (pa_counter acc)) as [[k' [t l c u|t]]|] eqn:RC; [| |discriminate].
    + destruct (IH _ _ H w I) as [I1|(pd' & var & k1 & k2 & l' & c' & u' & I1 & P1 & R1)].
      * cbn in I1. destruct (a_placement pd) eqn:PL; [auto|]. apply in_app_or in I1 as [I1|[<-|[]]]; [auto|].
        right. exists pd, (KVar name), (pa_counter acc), k', l, c, u. auto.
      * right. exists pd', var, k1, k2, l', c', u'. auto.
    + destruct (IH _ _ H w I) as [I1|(pd' & var & k1 & k2 & l' & c' & u' & I1 & P1 & R1)]; [auto|].
      right. exists pd', var, k1, k2, l', c', u'. auto.
Qed.

Lemma reorder_In ps : forall order ps' w, reorder ps order = Some ps' -> In w ps' -> In w ps.
Proof.
  induction order as [|n r IH]; cbn; intros ps' w H I; [injection H as <-; contradiction|].
  destruct (nth_error ps n) eqn:N; [|discriminate]. destruct (reorder ps r) eqn:R; [|discriminate]. injection H as <-.
  destruct I as [<-|I]; [eapply nth_error_In; eauto|eauto].
Qed.

(** Adding a lifetime neither adds nor removes a pointer. *)
Lemma param_lifetime_pointer p p' m e : param_with_lifetime p = Some p' -> wp_type p' = RTy (TPtr m e) -> p' = p.
Proof.
  unfold param_with_lifetime. destruct (wp_type p) as [[lead id args|mm lt x|mm x|x n|s|s]|tr a lt] eqn:T; intros H E;
    try (injection H as <-; cbn in E; try discriminate; reflexivity).
  destruct (add_lifetime_to_pinned_reference lead id args); [| discriminate|]; injection H as <-; [reflexivity|discriminate].
Qed.
Lemma params_lifetime_pointer : forall ps ps' p m e, params_with_lifetime ps = Some ps' -> In p ps' -> wp_type p = RTy (TPtr m e) -> In p ps.
Proof.
  induction ps as [|x r IH]; cbn; intros ps' p m e H I E; [injection H as <-; contradiction|].
  destruct (param_with_lifetime x) as [x'|] eqn:X; [|discriminate]. destruct (params_with_lifetime r) as [r'|]; [|discriminate].
  injection H as <-. destruct I as [->|I]; [|eauto]. left. symmetry. eapply param_lifetime_pointer; eauto.
Qed.
Lemma lifetime_pointer np details rc ps rt conv sg p m e :
  add_explicit_lifetime_if_necessary np details rc ps rt conv = Some sg ->
  In p (sg_params sg) -> wp_type p = RTy (TPtr m e) -> In p ps.
Proof.
  unfold add_explicit_lifetime_if_necessary.
  destruct (reference_parameter_is_non_pod_reference np rc ps); [|discriminate].
  destruct (return_type_is_pod_or_known_type_reference np rt); [|discriminate].
  destruct (negb _); [intros H; injection H as <-; auto|].
  destruct (ret_with_lifetime rt) as [| |rt']; [discriminate|intros H; injection H as <-; auto|].
  destruct (params_with_lifetime ps) as [ps'|] eqn:P; [|discriminate]. intros H I E. injection H as <-. cbn in I.
  eapply params_lifetime_pointer; eauto.
Qed.

Lemma common_parts_ok np fa avoid order rt sg body : common_parts np fa avoid order rt = Some (sg, body) ->
  exists pa wps sg0, param_parts avoid (fa_details fa) (Parts [] [] [] None rt false 0) = Some pa /\
    (forall w, In w wps -> In w (pa_params pa)) /\
    add_explicit_lifetime_if_necessary np (fa_details fa) true wps (pa_ret pa) (fa_ret_conv fa) = Some sg0 /\
    sg_params sg = sg_params sg0 /\ sg_lt sg = sg_lt sg0.
Proof.
  unfold common_parts. destruct (param_parts _ _ _) as [pa|] eqn:PA; [|discriminate].
  destruct (match order with Some o => reorder (pa_params pa) o | None => Some (pa_params pa) end) as [wps|] eqn:O; [|discriminate].
  destruct (add_explicit_lifetime_if_necessary _ _ _ _ _ _) as [sg0|] eqn:L; [|discriminate].
  match goal with |- match ?x with _ => _ end = _ -> _ => destruct x as [[cb rt']|]; [|discriminate] end.
  match goal with |- match ?x with _ => _ end = _ -> _ => destruct x as [stmts|]; [|discriminate] end.
  intros H. injection H as <- <-. exists pa, wps, sg0. repeat split; auto.
  intros w I. destruct order; [eapply reorder_In; eauto|]. injection O as <-. exact I.
Qed.

Lemma convert_return_type_ok env ns soph rt st st' r : convert_return_type env ns soph rt st = (st', OOk r) ->
  match rt with
  | None => r = ret_default
  | Some t0 => exists an s1, convert_boxed_type env ns t0 st = (s1, OOk an) /\
      (((forall l i ar q, ann_ty an = TPath l i ar -> path_name l i = Some q -> In q (fe_pod_safe env)) /\
        exists conv, r = Ret (Some (ann_ty an)) (Some conv)
            (match ann_kind an with TkReference | TkMutableReference => true | _ => false end)
            (match ann_kind an with TkMutableReference => true | _ => false end) (ann_deps an) None /\
          (if (match ann_kind an with TkReference | TkMutableReference => true | _ => false end) && is_wrapped_policy env
           then return_reference_into_wrapper (ann_ty an) = Some conv else conv = new_unconverted (ann_ty an)))
       \/ (exists l i ar q, ann_ty an = TPath l i ar /\ path_name l i = Some q /\ ~ In q (fe_pod_safe env) /\
            ((In q (fe_moveit env) /\ soph = Regular /\ exists p s2,
                convert_fn_arg env ns None false false (Some RcFromPlacementParamToNewReturn) Regular false
                  "placement_return_type" (TPtr true (ann_ty an)) s1 = (s2, OOk p) /\
                r = Ret None (Some (new_for_placement_return (ann_ty an))) false false (ann_deps an) (Some p)) \/
             ((~ In q (fe_moveit env) \/ soph <> Regular) /\
              r = Ret (Some (ann_ty an)) (Some (new_to_unique_ptr (ann_ty an))) false false (ann_deps an) None))))
  end.
Proof.
  unfold convert_return_type. destruct rt as [t0|]; [|intros H; apply ret_ok in H as [_ ->]; reflexivity].
  intros H. apply bind_ok in H as (s1 & an & HB & H). exists an, s1. split; [exact HB|].
  assert (PLAIN : forall st, (forall l i ar q, ann_ty an = TPath l i ar -> path_name l i = Some q -> In q (fe_pod_safe env)) ->
    (do conv <- of_option (if ((match ann_kind an with TkMutableReference => true | _ => false end) || (match ann_kind an with TkReference => true | _ => false end)) && is_wrapped_policy env
              then return_reference_into_wrapper (ann_ty an) else Some (new_unconverted (ann_ty an)));
     ret (Ret (Some (ann_ty an)) (Some conv) ((match ann_kind an with TkMutableReference => true | _ => false end) || (match ann_kind an with TkReference => true | _ => false end))
           (match ann_kind an with TkMutableReference => true | _ => false end) (ann_deps an) None)) st = (st', OOk r) ->
    exists conv, r = Ret (Some (ann_ty an)) (Some conv)
            (match ann_kind an with TkReference | TkMutableReference => true | _ => false end)
            (match ann_kind an with TkMutableReference => true | _ => false end) (ann_deps an) None /\
          (if (match ann_kind an with TkReference | TkMutableReference => true | _ => false end) && is_wrapped_policy env
           then return_reference_into_wrapper (ann_ty an) = Some conv else conv = new_unconverted (ann_ty an))).
  { intros s _ E. apply bind_ok in E as (s2 & conv & E1 & E). apply of_option_ok in E1 as [E1 ->]. apply ret_ok in E as [-> ->].
    exists conv. destruct (ann_kind an); cbn in *; destruct (is_wrapped_policy env); cbn in *; split; auto; congruence. }
  destruct (ann_ty an) as [lead id args|m lt x|m x|x n|s|s] eqn:T;
    try (left; split; [intros; discriminate|]; eapply PLAIN; [intros; discriminate|exact H]).
  apply bind_ok in H as (s2 & q & HQ & H). apply of_option_ok in HQ as [HQ ->].
  destruct (qmem q (fe_pod_safe env)) eqn:PS.
  - assert (A : forall l i ar q0, TPath lead id args = TPath l i ar -> path_name l i = Some q0 -> In q0 (fe_pod_safe env)).
    { intros l i ar q0 E Q. injection E as <- <- <-. rewrite HQ in Q. injection Q as <-. apply qmem_In. exact PS. }
    left. split; [exact A|]. eapply PLAIN; [exact A|exact H].
  - right. exists lead, id, args, q. repeat split; auto. { intros I. apply qmem_In in I. congruence. }
    destruct (qmem q (fe_moveit env)) eqn:MV; cbn [andb] in H.
    + destruct soph.
      * left. apply qmem_In in MV. repeat split; auto. apply bind_ok in H as (s3 & p & HP & H). apply ret_ok in H as [-> ->]. eauto.
      * right. apply ret_ok in H as [-> ->]. split; [right; discriminate|reflexivity].
    + right. apply ret_ok in H as [-> ->]. split; [left; intros I; apply qmem_In in I; congruence|reflexivity].
Qed.

Inductive origin (env : fn_env) (fn : func) (ns : list string) (soph : sophistication) (kind : fn_kind) (p : (string * ty) * arg) : Prop :=
| or_first n t s1 s2 : In (n, t) (f_inputs fn) ->
    convert_fn_arg env ns (f_this fn) true false None soph false n t s1 = (s2, OOk p) -> origin env fn ns soph kind p
| or_again idx force ctor mv n t s1 s2 : again kind idx force ctor mv -> nth_error (f_inputs fn) idx = Some (n, t) ->
    convert_fn_arg env ns (f_this fn) false mv force soph ctor n t s1 = (s2, OOk p) -> origin env fn ns soph kind p
| or_place t s1 s2 :
    convert_fn_arg env ns None false false (Some RcFromPlacementParamToNewReturn) Regular false "placement_return_type" t s1 = (s2, OOk p) ->
    origin env fn ns soph kind p.

Lemma piece_origin env name fn soph pre fa ps0 bads ig0 ps1 r ig2 b0 kw :
  pieces env name fn soph pre fa ps0 bads ig0 ps1 r ig2 b0 kw ->
  forall p, In p (ps1 ++ match r_placement r with Some p => [p] | None => [] end) ->
  origin env fn (qn_ns (an_name name)) soph (fa_kind fa) p.
Proof.
  intros PC p I. apply in_app_or in I as [I|I].
  - destruct (pc_receiver _ _ _ _ _ _ _ _ _ _ _ _ _ _ PC) as (s1 & s2 & FR).
    destruct (fix_receiver_in _ _ _ _ _ _ _ _ _ _ FR p I) as [I0|(idx & force & ctor & mv & n & t & s3 & s4 & A & N & C)].
    + destruct (pc_params _ _ _ _ _ _ _ _ _ _ _ _ _ _ PC) as (s3 & s4 & CP). apply convert_params_ok in CP as (CP & _ & _).
      destruct (CP _ I0) as (n & t & s5 & s6 & IN & C). eapply or_first; eauto.
    + eapply or_again; eauto.
  - destruct (r_placement r) as [p'|] eqn:R; [|contradiction]. destruct I as [<-|[]].
    destruct (pc_return _ _ _ _ _ _ _ _ _ _ _ _ _ _ PC) as (s1 & s2 & [[C _]|(e & _ & -> & _)]); [|discriminate].
    apply convert_return_type_ok in C. destruct (f_output fn) as [t0|]; [|subst r; discriminate].
    destruct C as (an & s3 & _ & [(_ & conv & -> & _)|(l & i & ar & q & _ & _ & _ & [(_ & _ & p & s4 & C & ->)|(_ & ->)])]); try discriminate.
    injection R as <-. eapply or_place; eauto.
Qed.

Lemma convert_params_bads env fn ns soph : forall inputs st st' ps bads,
  convert_params env fn ns soph inputs st = (st', OOk (ps, bads)) ->
  forall e, In e bads -> exists n t s1 s2, In (n, t) inputs /\
     convert_fn_arg env ns (f_this fn) true false None soph false n t s1 = (s2, OErr e).
Proof.
  induction inputs as [|[n t] rest IH]; intros st st' ps bads H e I.
  - apply ret_ok in H as [-> H]. injection H as -> ->. contradiction.
  - cbn [convert_params] in H. apply bind_ok in H as (st1 & r & H1 & H).
    apply bind_ok in H as (st2 & [ps1 bads1] & H2 & H). apply ret_ok in H as [-> H].
    assert (R : In e bads1 -> exists n0 t0 s1 s2, In (n0, t0) ((n, t) :: rest) /\
      convert_fn_arg env ns (f_this fn) true false None soph false n0 t0 s1 = (s2, OErr e)).
    { intros I1. destruct (IH _ _ _ _ H2 e I1) as (n0 & t0 & s1 & s2 & I2 & C). exists n0, t0, s1, s2. split; [right; exact I2|exact C]. }
    apply catch_ok in H1 as [(p & H1 & ->)|(e' & H1 & ->)]; injection H as -> ->; [auto|].
    destruct I as [->|I]; [|auto]. exists n, t, st, st1. split; [left; reflexivity|exact H1].
Qed.
