(** The calls which an [include_cpp!] block admits (C53), and the removal of system headers (C54). *)
From Verif Require Import Base ConfigModel EngineModel.
Local Open Scope list_scope.

(** ** C53 *)
Section Calls.
Variable hash : config -> string.
Variable nightly : bool.
Variable prelude : string.
Variable convert : request -> config -> outcome conversion.
Variable cxx_gen : string -> string -> outcome (string * string).
Notation do_call := (do_call hash nightly prelude convert cxx_gen).
Notation do_calls := (do_calls hash nightly prelude convert cxx_gen).

(** A block as it is after parsing, or one made for discovered items. *)
Definition fresh (e : engine) : Prop :=
  e = new_for_autodiscover \/ exists ts, engine_parse ts = Done e.

(** There has been a successful generation. *)
Definition succeeded (h : list (call * reply)) : Prop := exists i x, In (CGenerate i x, RUnit) h.
(** The configuration after the changes made. *)
Definition configured (c : config) (h : list (call * reply)) : config :=
  fold_left (fun c e => match fst e with CConfigMut f => f c | _ => c end) h c.
(** What is generated from a configuration. *)
Definition makes (i x : list string) (c : config) (v : conversion) : Prop :=
  exists a, bindgen_allowlist hash c = ROk a
    /\ convert (Request (autocxx_clang_args ++ map (fun d => "-I" +++ d) i ++ x) a (cf_opaquelist c) (prelude +++ nl +++ nl +++ build_header c)) c = Done v.

Lemma fresh_state e : fresh e -> en_state e = if cf_parse_only (en_config e) then ParseOnly else NotGenerated.
Proof.
  intros [->|[ts H]]; [reflexivity|]. unfold engine_parse in H.
  destruct (parse_config default_config ts) as [c| |]; inversion H; subst. reflexivity.
Qed.

Lemma do_calls_app l1 : forall l2 e,
  do_calls (l1 ++ l2) e
  = let '(h1, p1, e1) := do_calls l1 e in
    if p1 then (h1, true, e1) else let '(h2, p2, e2) := do_calls l2 e1 in (h1 ++ h2, p2, e2).
Proof.
  induction l1 as [|k l1 IH]; intros l2 e; cbn [app EngineModel.do_calls].
  - destruct (do_calls l2 e) as [[h p] e2]. reflexivity.
  - destruct (do_call k e) as [[e' r]|]; [|reflexivity]. rewrite IH.
    destruct (do_calls l1 e') as [[h1 p1] e1]. destruct p1; [reflexivity|].
    destruct (do_calls l2 e1) as [[h2 p2] e2]. reflexivity.
Qed.

(** A history which can happen to a block. *)
Inductive hist (e0 : engine) : list (call * reply) -> engine -> Prop :=
| hist_nil : hist e0 [] e0
| hist_snoc h e k e' r : hist e0 h e -> do_call k e = Some (e', r) -> hist e0 (h ++ [(k, r)]) e'.

(** The whole state after a history, in terms of the history alone. *)
Definition at_state (e0 : engine) (h : list (call * reply)) (e : engine) : Prop :=
  if cf_parse_only (en_config e0) then e = e0
  else
    en_config e = configured (en_config e0) h /\
    ((en_state e = NotGenerated /\ ~ succeeded h)
     \/ exists h1 h2 i x v g, h = h1 ++ (CGenerate i x, RUnit) :: h2 /\ ~ succeeded h1
          /\ (forall f r, ~ In (CConfigMut f, r) h2) /\ (forall i' x' r, ~ In (CGenerate i' x', r) h2)
          /\ makes i x (configured (en_config e0) h1) v
          /\ g = Generation (get_mod_name (configured (en_config e0) h1)) (cv_items v) (cv_cpp v) i (cv_header_name v)
          /\ en_state e = Generated g).

Lemma configured_app c h1 h2 : configured c (h1 ++ h2) = configured (configured c h1) h2.
Proof. apply fold_left_app. Qed.
Lemma succeeded_app h1 h2 : succeeded (h1 ++ h2) <-> succeeded h1 \/ succeeded h2.
Proof.
  unfold succeeded. split.
  - intros (i & x & I). apply in_app_iff in I as [I|I]; [left|right]; eauto.
  - intros [(i & x & I)|(i & x & I)]; exists i, x; apply in_app_iff; auto.
Qed.

Lemma generate_cases i x e e' o : generate hash nightly prelude convert i x e = (e', o) ->
  match en_state e with
  | ParseOnly => e' = e /\ o = Done tt
  | Generated _ => e' = e /\ o = Panics
  | NotGenerated =>
      (e' = e /\ o <> Done tt)
      \/ o = Done tt /\ exists v, makes i x (en_config e) v
         /\ e' = Engine (en_config e) (Generated (Generation (get_mod_name (en_config e)) (cv_items v) (cv_cpp v) i (cv_header_name v)))
  end.
Proof.
  unfold generate, make_request. destruct (en_state e) eqn:ST; intros H; [|inversion H; auto|inversion H; auto].
  assert (G : forall a, bindgen_allowlist hash (en_config e) = ROk a ->
     match convert (Request (make_clang_args i x) a (cf_opaquelist (en_config e)) (prelude +++ nl +++ nl +++ build_header (en_config e))) (en_config e) with
     | Panics => (e, Panics) | Fails x => (e, Fails x)
     | Done v => (Engine (en_config e) (Generated (Generation (get_mod_name (en_config e)) (cv_items v) (cv_cpp v) i (cv_header_name v))), Done tt)
     end = (e', o) ->
     (e' = e /\ o <> Done tt) \/ o = Done tt /\ exists v, makes i x (en_config e) v
         /\ e' = Engine (en_config e) (Generated (Generation (get_mod_name (en_config e)) (cv_items v) (cv_cpp v) i (cv_header_name v)))).
  { intros a A X. destruct (convert _ _) as [v|y|] eqn:C; inversion X; subst.
    - right. split; [reflexivity|]. exists v. split; [|reflexivity]. exists a. split; [exact A|exact C].
    - left. split; [reflexivity|discriminate].
    - left. split; [reflexivity|discriminate]. }
  destruct (cf_policy (en_config e)); destruct nightly;
    try (inversion H; subst; left; split; [reflexivity|discriminate]);
    (destruct (bindgen_allowlist hash (en_config e)) as [a| |] eqn:A; [exact (G a eq_refl H)| |]);
    inversion H; subst; left; split; first [reflexivity|discriminate].
Qed.

Lemma state_of_history e0 h e : fresh e0 -> hist e0 h e -> at_state e0 h e.
Proof.
  intros F H. apply fresh_state in F. unfold at_state.
  induction H as [|h e k e' r H IH C].
  - destruct (cf_parse_only (en_config e0)) eqn:P; [reflexivity|]. split; [reflexivity|]. left. split; [exact F|]. intros (i & x & []).
  - destruct (cf_parse_only (en_config e0)) eqn:P.
    + subst e. destruct k; cbn in C.
      * unfold config_mut in C. rewrite F in C. discriminate C.
      * destruct (generate hash nightly prelude convert incs extra e0) as [e2 o] eqn:G. apply generate_cases in G. rewrite F in G. destruct G as [-> ->].
        injection C as <- _. reflexivity.
      * destruct (get_rs_output e0); inversion C; reflexivity.
      * destruct (include_dirs e0); inversion C; reflexivity.
      * destruct (generate_h_and_cxx cxx_gen suppress e0); inversion C; reflexivity.
    + destruct IH as [CF ST].
      (* calls which leave the engine alone *)
      assert (SAME : e' = e -> (forall f, k <> CConfigMut f) -> (forall i x, k <> CGenerate i x) \/ r <> RUnit /\ en_state e = NotGenerated ->
        en_config e' = configured (en_config e0) (h ++ [(k, r)]) /\
        ((en_state e' = NotGenerated /\ ~ succeeded (h ++ [(k, r)]))
         \/ exists h1 h2 i x v g, h ++ [(k, r)] = h1 ++ (CGenerate i x, RUnit) :: h2 /\ ~ succeeded h1
          /\ (forall f r, ~ In (CConfigMut f, r) h2) /\ (forall i' x' r, ~ In (CGenerate i' x', r) h2)
          /\ makes i x (configured (en_config e0) h1) v
          /\ g = Generation (get_mod_name (configured (en_config e0) h1)) (cv_items v) (cv_cpp v) i (cv_header_name v)
          /\ en_state e' = Generated g)).
      { intros -> N1 N2. split.
        - rewrite configured_app, <- CF. unfold configured. cbn. destruct k; try reflexivity. destruct (N1 f eq_refl).
        - destruct ST as [[ST NS]|(h1 & h2 & i & x & v & g & -> & NS & NC & NG & M & G & ST)].
          + left. split; [exact ST|]. rewrite succeeded_app. intros [S|(i & x & [S|[]])]; [exact (NS S)|]. injection S as -> ->.
            destruct N2 as [N2|[N2 _]]; [exact (N2 i x eq_refl)|exact (N2 eq_refl)].
          + right. exists h1, (h2 ++ [(k, r)]), i, x, v, g. rewrite <- app_assoc. split; [reflexivity|]. split; [exact NS|].
            split; [|split; [|auto]].
            * intros f r' I. apply in_app_iff in I as [I|[I|[]]]; [exact (NC f r' I)|]. injection I as -> _. exact (N1 f eq_refl).
            * intros i' x' r' I. apply in_app_iff in I as [I|[I|[]]]; [exact (NG i' x' r' I)|]. injection I as -> _.
              destruct N2 as [N2|[_ N2]]; [exact (N2 i' x' eq_refl)|congruence]. }
      destruct k; cbn in C.
      * unfold config_mut in C. destruct (en_state e) eqn:SE; try discriminate C. injection C as <- <-. cbn.
        split; [rewrite configured_app, CF; reflexivity|]. left. split; [reflexivity|].
        destruct ST as [[_ NS]|(h1 & h2 & i & x & v & g & _ & _ & _ & _ & _ & _ & X)]; [|discriminate X].
        rewrite succeeded_app. intros [S|(i & x & [S|[]])]; [exact (NS S)|discriminate S].
      * destruct (generate hash nightly prelude convert incs extra e) as [e2 o] eqn:G. apply generate_cases in G.
        destruct (en_state e) eqn:SE.
        -- destruct G as [[-> NO]|(-> & v & M & ->)].
           ++ destruct o as [[]|x|]; [congruence| |discriminate C]. injection C as <- <-. apply SAME; [reflexivity|discriminate|].
              right. split; [discriminate|reflexivity].
           ++ injection C as <- <-. cbn [en_config en_state]. split; [rewrite configured_app, <- CF; reflexivity|]. right.
              destruct ST as [[_ NS]|(h1 & h2 & i & x & v' & g & _ & _ & _ & _ & _ & _ & X)]; [|discriminate X].
              exists h, [], incs, extra, v. eexists. split; [reflexivity|]. split; [exact NS|]. split; [intros f r []|]. split; [intros i x r []|].
              rewrite <- CF. split; [exact M|]. split; reflexivity.
        -- exfalso. destruct ST as [[X _]|(h1 & h2 & i & x & v & g & _ & _ & _ & _ & _ & _ & X)]; discriminate X.
        -- destruct G as [-> ->]. discriminate C.
      * destruct (get_rs_output e); inversion C; subst; (apply SAME; [reflexivity|discriminate|left; discriminate]).
      * destruct (include_dirs e); inversion C; subst; (apply SAME; [reflexivity|discriminate|left; discriminate]).
      * destruct (generate_h_and_cxx cxx_gen suppress e); inversion C; subst; (apply SAME; [reflexivity|discriminate|left; discriminate]).
Qed.

Lemma hist_split e0 h2 : forall h1 e, hist e0 (h1 ++ h2) e -> exists e1, hist e0 h1 e1 /\ hist e1 h2 e.
Proof.
  induction h2 as [|a h2 IH] using rev_ind; intros h1 e H.
  - rewrite app_nil_r in H. exists e. split; [exact H|constructor].
  - rewrite app_assoc in H. inversion H as [X|h e1 k e' r H1 C X]; [destruct (h1 ++ h2); discriminate X|].
    apply app_inj_tail in X as [-> <-]. destruct (IH h1 e1 H1) as (e2 & A & B). exists e2. split; [exact A|]. econstructor; eassumption.
Qed.
Lemma do_calls_hist l : forall e0 h0 e, hist e0 h0 e -> forall h p e', do_calls l e = (h, p, e') -> hist e0 (h0 ++ h) e'.
Proof.
  induction l as [|k l IH]; intros e0 h0 e H h p e' D; cbn in D.
  - injection D as <- _ <-. rewrite app_nil_r. exact H.
  - destruct (do_call k e) as [[e1 r]|] eqn:C.
    + destruct (do_calls l e1) as [[h2 p2] e2] eqn:D2. injection D as <- -> <-.
      change ((k, r) :: h2) with ([(k, r)] ++ h2). rewrite app_assoc. eapply IH; [|exact D2]. econstructor; eassumption.
    + injection D as <- _ <-. rewrite app_nil_r. exact H.
Qed.
End Calls.

(** After a generation which succeeded, the configuration is not changed and there is no further generation: such calls panic. *)
Theorem c53_nothing_after_generation :
  forall hash nightly prelude convert cxx_gen e0 l h p e h1 h2 i x,
    fresh e0 -> cf_parse_only (en_config e0) = false ->
    do_calls hash nightly prelude convert cxx_gen l e0 = (h, p, e) ->
    h = h1 ++ (CGenerate i x, RUnit) :: h2 ->
    forall k r, In (k, r) h2 -> (forall f, k <> CConfigMut f) /\ (forall i' x', k <> CGenerate i' x').
Proof.
  intros hash nightly prelude convert cxx_gen e0 l h p e h1 h2 i x F P D E k r I.
  assert (H := do_calls_hist _ _ _ _ _ l e0 [] e0 (hist_nil _ _ _ _ _ _) h p e D). cbn in H.
  assert (S := state_of_history _ _ _ _ _ _ _ _ F H). unfold at_state in S. rewrite P in S. destruct S as [_ [[_ NS]|S]].
  - exfalso. apply NS. exists i, x. rewrite E. apply in_elt.
  - destruct S as (g1 & g2 & i' & x' & v & g & E' & NS & NC & NG & _). rewrite E in E'.
    (* the first success is this one *)
    assert (X : h1 = g1 /\ h2 = g2).
    { clear - E' NS NG. revert h1 E' NS. induction g1 as [|a g1 IH]; intros h1 E' NS.
      - destruct h1 as [|b h1]; [injection E' as _ _ ->; auto|]. injection E' as -> <-. exfalso. apply (NG i x RUnit). apply in_elt.
      - destruct h1 as [|b h1].
        + injection E' as <- _. exfalso. apply NS. exists i, x. left. reflexivity.
        + injection E' as -> E'. destruct (IH h1 E') as [-> ->].
          * intros (i2 & x2 & I). apply NS. exists i2, x2. right. exact I.
          * auto. }
    destruct X as [-> ->]. split; intros; intros ->; [exact (NC _ _ I)|exact (NG _ _ _ I)].
Qed.
Print Assumptions c53_nothing_after_generation.

(** Bindings which are read come from a generation before, of the very configuration which the block has. *)
Theorem c53_output_of_this_configuration :
  forall hash nightly prelude convert cxx_gen e0 l h p e h1 h2 r,
    fresh e0 -> cf_parse_only (en_config e0) = false ->
    do_calls hash nightly prelude convert cxx_gen l e0 = (h, p, e) ->
    h = h1 ++ (CGetRs, r) :: h2 ->
    exists i x v, In (CGenerate i x, RUnit) h1
      /\ makes hash prelude convert i x (configured (en_config e0) h1) v
      /\ r = RRs (Some (get_mod_name (configured (en_config e0) h1), cv_items v)).
Proof.
  intros hash nightly prelude convert cxx_gen e0 l h p e h1 h2 r F P D ->.
  assert (H := do_calls_hist _ _ _ _ _ l e0 [] e0 (hist_nil _ _ _ _ _ _) _ p e D). cbn in H.
  apply hist_split in H as (e1 & H1 & H2). assert (S := state_of_history _ _ _ _ _ _ _ _ F H1). unfold at_state in S. rewrite P in S.
  change ((CGetRs, r) :: h2) with ([(CGetRs, r)] ++ h2) in H2. apply hist_split in H2 as (e2 & H2 & _).
  assert (C : do_call hash nightly prelude convert cxx_gen CGetRs e1 = Some (e2, r)).
  { inversion H2 as [|h e3 k e' r' H3 C X]. destruct h as [|a h]; [|destruct h; discriminate X].
    injection X as -> ->. inversion H3; subst; [exact C|]. destruct h; discriminate. }
  cbn in C. unfold get_rs_output in C. destruct S as [CF [[ST _]|(g1 & g2 & i & x & v & g & -> & _ & NC & _ & M & -> & ST)]]; rewrite ST in C; [discriminate C|].
  assert (E : configured (en_config e0) (g1 ++ (CGenerate i x, RUnit) :: g2) = configured (en_config e0) g1).
  { rewrite configured_app. unfold configured at 1. cbn [fold_left fst].
    assert (N : forall l c, (forall f r, ~ In (CConfigMut f, r) l) -> configured c l = c).
    { clear. induction l as [|[k r] l IH]; intros c N; [reflexivity|]. unfold configured. cbn [fold_left fst]. fold (configured (match k with CConfigMut f => f c | _ => c end) l). rewrite IH; [|intros f r' I; exact (N f r' (or_intror I))].
      destruct k; try reflexivity. destruct (N f r). left. reflexivity. }
    exact (N g2 _ NC). }
  injection C as <- <-. exists i, x, v. split; [apply in_elt|]. rewrite E. split; [exact M|reflexivity].
Qed.
Print Assumptions c53_output_of_this_configuration.

(** The C++ which is read belongs to the same configuration: the header and the source cxx makes for the bindings read, under the
    name the bindings include, and after them the C++ which conversion wrote itself, if any. *)
Theorem c53_cpp_of_this_configuration :
  forall hash nightly prelude convert cxx_gen e0 l h p e h1 h2 s ps,
    fresh e0 -> cf_parse_only (en_config e0) = false ->
    do_calls hash nightly prelude convert cxx_gen l e0 = (h, p, e) ->
    h = h1 ++ (CCpp s, RCpp ps) :: h2 ->
    exists i x v hd src, In (CGenerate i x, RUnit) h1
      /\ makes hash prelude convert i x (configured (en_config e0) h1) v
      /\ cxx_gen (get_mod_name (configured (en_config e0) h1)) (cv_items v) = Done (hd, src)
      /\ (forall q, In q ps <-> q = CppPair (strip_system_headers hd s) (Some (strip_system_headers src s)) (cv_header_name v) \/ cv_cpp v = Some q)
      /\ hd_error ps = Some (CppPair (strip_system_headers hd s) (Some (strip_system_headers src s)) (cv_header_name v)).
Proof.
  intros hash nightly prelude convert cxx_gen e0 l h p e h1 h2 s ps F P D ->.
  assert (H := do_calls_hist _ _ _ _ _ l e0 [] e0 (hist_nil _ _ _ _ _ _) _ p e D). cbn in H.
  apply hist_split in H as (e1 & H1 & H2). assert (S := state_of_history _ _ _ _ _ _ _ _ F H1). unfold at_state in S. rewrite P in S.
  change ((CCpp s, RCpp ps) :: h2) with ([(CCpp s, RCpp ps)] ++ h2) in H2. apply hist_split in H2 as (e2 & H2 & _).
  assert (C : do_call hash nightly prelude convert cxx_gen (CCpp s) e1 = Some (e2, RCpp ps)).
  { inversion H2 as [|h e3 k e' r' H3 C X]. destruct h as [|a h]; [|destruct h; discriminate X].
    injection X as -> ->. inversion H3; subst; [exact C|]. destruct h; discriminate. }
  cbn in C. unfold generate_h_and_cxx in C. destruct S as [CF [[ST _]|(g1 & g2 & i & x & v & g & -> & _ & NC & _ & M & -> & ST)]]; rewrite ST in C; [discriminate C|].
  assert (E : configured (en_config e0) (g1 ++ (CGenerate i x, RUnit) :: g2) = configured (en_config e0) g1).
  { rewrite configured_app. unfold configured at 1. cbn [fold_left fst].
    assert (N : forall l c, (forall f r, ~ In (CConfigMut f, r) l) -> configured c l = c).
    { clear. induction l as [|[k r] l IH]; intros c N; [reflexivity|]. unfold configured. cbn [fold_left fst]. fold (configured (match k with CConfigMut f => f c | _ => c end) l). rewrite IH; [|intros f r' I; exact (N f r' (or_intror I))].
      destruct k; try reflexivity. destruct (N f r). left. reflexivity. }
    exact (N g2 _ NC). }
  cbn [gn_mod gn_items gn_header_name gn_cpp] in C. unfold do_cxx_cpp_generation in C.
  destruct (cxx_gen _ _) as [[hd src]|y|] eqn:X; [|discriminate C|discriminate C].
  injection C as _ <-. exists i, x, v, hd, src. rewrite E. split; [apply in_elt|]. split; [exact M|]. split; [exact X|]. split; [|reflexivity].
  intros q. cbn [In]. destruct (cv_cpp v) as [q'|]; cbn [In]; intuition congruence.
Qed.
Print Assumptions c53_cpp_of_this_configuration.

(** A block which is only parsed gives empty bindings and does nothing else; its configuration cannot be changed. *)
Theorem c53_parse_only :
  forall hash nightly prelude convert cxx_gen e0 l h p e,
    fresh e0 -> cf_parse_only (en_config e0) = true ->
    do_calls hash nightly prelude convert cxx_gen l e0 = (h, p, e) ->
    e = e0 /\ forall k r, In (k, r) h -> (k = CGetRs /\ r = RRs None) \/ exists i x, k = CGenerate i x /\ r = RUnit.
Proof.
  intros hash nightly prelude convert cxx_gen e0 l h p e F P D.
  assert (S := fresh_state _ F). rewrite P in S. clear F. revert h p e D.
  induction l as [|k l IH]; intros h p e D; cbn in D.
  - injection D as <- _ <-. split; [reflexivity|intros ? ? []].
  - destruct (do_call hash nightly prelude convert cxx_gen k e0) as [[e1 r]|] eqn:C; [|injection D as <- _ <-; split; [reflexivity|intros ? ? []]].
    assert (X : e1 = e0 /\ ((k = CGetRs /\ r = RRs None) \/ exists i x, k = CGenerate i x /\ r = RUnit)).
    { destruct k; cbn in C; unfold config_mut, generate, get_rs_output, include_dirs, generate_h_and_cxx in C; rewrite S in C; try discriminate C;
        injection C as <- <-; split; eauto. }
    destruct X as [-> X]. destruct (do_calls hash nightly prelude convert cxx_gen l e0) as [[h2 p2] e2] eqn:D2.
    injection D as <- -> <-. destruct (IH h2 p e2 eq_refl) as [-> Y]. split; [reflexivity|].
    intros k' r' [I|I]; [injection I as <- <-; exact X|exact (Y k' r' I)].
Qed.
Print Assumptions c53_parse_only.

(** Exactly when the next call panics, after any history; the generators themselves are taken not to panic. *)
Theorem c53_other_calls_panic :
  forall hash nightly prelude convert cxx_gen e0 l h e k,
    (forall r c, convert r c <> Panics) -> (forall m i, cxx_gen m i <> Panics) ->
    fresh e0 ->
    do_calls hash nightly prelude convert cxx_gen l e0 = (h, false, e) ->
    (do_call hash nightly prelude convert cxx_gen k e = None <->
     let po := cf_parse_only (en_config e0) = true in
     match k with
     | CConfigMut _ => po \/ succeeded h
     | CGetRs => ~ po /\ ~ succeeded h
     | CIncludeDirs | CCpp _ => po \/ ~ succeeded h
     | CGenerate _ _ =>
         ~ po /\ (succeeded h
                  \/ (exists u, cf_allowlist (configured (en_config e0) h) = AUnspecified u)
                     /\ (cf_policy (configured (en_config e0) h) = ReferencesWrappedAllFunctionsSafe -> nightly = true))
     end).
Proof.
  intros hash nightly prelude convert cxx_gen e0 l h e k NP NX F D.
  assert (H := do_calls_hist _ _ _ _ _ l e0 [] e0 (hist_nil _ _ _ _ _ _) _ _ e D). cbn in H.
  assert (S := state_of_history _ _ _ _ _ _ _ _ F H). unfold at_state in S.
  destruct (cf_parse_only (en_config e0)) eqn:P; cbn zeta.
  - subst e. apply fresh_state in F. rewrite P in F.
    destruct k; cbn; unfold config_mut, generate, get_rs_output, include_dirs, generate_h_and_cxx; rewrite F; split; intros X; try discriminate X; try tauto; auto.
  - destruct S as [CF [[ST NS]|(h1 & h2 & i & x & v & g & E & NS & _ & _ & M & G & ST)]].
    + destruct k; cbn; unfold config_mut, generate, get_rs_output, include_dirs, generate_h_and_cxx; rewrite ST.
      * split; [intros X; discriminate X|]. intros [X|X]; [discriminate X|tauto].
      * rewrite <- CF. unfold make_request, bindgen_allowlist.
        assert (CV : forall r c, match convert r c with Done v => Some (Engine c (Generated (Generation (get_mod_name c) (cv_items v) (cv_cpp v) incs (cv_header_name v))), RUnit) | Fails y => Some (e, RFailed y) | Panics => None end <> None).
        { intros r c. specialize (NP r c). destruct (convert r c); [discriminate|discriminate|congruence]. }
        destruct (cf_allowlist (en_config e)) as [u| |u] eqn:A.
        -- destruct (cf_policy (en_config e)) eqn:PO.
           ++ split; [intros _|reflexivity]. split; [discriminate|]. right. split; [eauto|discriminate].
           ++ split; [intros _|reflexivity]. split; [discriminate|]. right. split; [eauto|discriminate].
           ++ destruct nightly.
              ** split; [intros _|reflexivity]. split; [discriminate|]. right. split; eauto.
              ** split; [intros X; discriminate X|]. intros [_ [X|[_ X]]]; [tauto|discriminate (X eq_refl)].
        -- split; [|intros [_ [X|[[u X] _]]]; [tauto|discriminate X]].
           intros X. exfalso. destruct (cf_policy (en_config e)); [| |destruct nightly; [|discriminate X]];
             match type of X with context [convert ?r ?c] => apply (CV r c); destruct (convert r c); [discriminate X|discriminate X|reflexivity] end.
        -- split; [|intros [_ [X|[[u' X] _]]]; [tauto|discriminate X]].
           intros X. exfalso. destruct (cf_policy (en_config e)); [| |destruct nightly; [|discriminate X]];
             match type of X with context [convert ?r ?c] => apply (CV r c); destruct (convert r c); [discriminate X|discriminate X|reflexivity] end.
      * split; [|reflexivity]. intros _. split; [discriminate|exact NS].
      * split; [auto|reflexivity].
      * split; [auto|reflexivity].
    + assert (SU : succeeded h) by (rewrite E; exists i, x; apply in_elt).
      destruct k; cbn; unfold config_mut, generate, get_rs_output, include_dirs, generate_h_and_cxx; rewrite ST.
      * split; auto.
      * split; [|reflexivity]. intros _. split; [discriminate|auto].
      * split; [intros X; discriminate X|tauto].
      * split; [intros X; discriminate X|]. intros [X|X]; [discriminate X|tauto].
      * unfold do_cxx_cpp_generation. specialize (NX (gn_mod g) (gn_items g)).
        destruct (cxx_gen (gn_mod g) (gn_items g)) as [[a b]|y|]; [| |congruence]; (split; [intros X; discriminate X|]; intros [X|X]; [discriminate X|tauto]).
Qed.
Print Assumptions c53_other_calls_panic.

(** A generation which fails leaves everything as it was, and can be tried again. *)
Theorem c53_failure_changes_nothing :
  forall hash nightly prelude convert cxx_gen i x e e' y,
    do_call hash nightly prelude convert cxx_gen (CGenerate i x) e = Some (e', RFailed y) -> e' = e.
Proof.
  intros hash nightly prelude convert cxx_gen i x e e' y H. cbn in H.
  destruct (generate hash nightly prelude convert i x e) as [e2 o] eqn:G. apply generate_cases in G.
  destruct o as [[]|z|]; inversion H; subst. destruct (en_state e); [destruct G as [[-> _]|[X _]]; [reflexivity|discriminate X]|apply G|apply G].
Qed.
Print Assumptions c53_failure_changes_nothing.

(** A block which is only parsed cannot be used in a build: its include directories and its C++, which a build asks for, panic. *)
Theorem c53_parse_only_build_refuted :
  exists ts e0, engine_parse ts = Done e0 /\
    forall hash nightly prelude convert cxx_gen i x s,
      do_calls hash nightly prelude convert cxx_gen [CGenerate i x; CGetRs; CIncludeDirs] e0 = ([(CGenerate i x, RUnit); (CGetRs, RRs None)], true, e0)
      /\ do_calls hash nightly prelude convert cxx_gen [CGenerate i x; CGetRs; CCpp s] e0 = ([(CGenerate i x, RUnit); (CGetRs, RRs None)], true, e0).
Proof.
  exists [TIdent "parse_only"; TBang; TGroup []]. eexists. split; [reflexivity|]. intros. split; reflexivity.
Qed.
Print Assumptions c53_parse_only_build_refuted.

(** A block with a failing generation, a change, a successful generation and then its output. *)
Example c53_case :
  let conv := fun (r : request) c => if smem "X" (cf_opaquelist c) then Done (Conversion "items" None "cxxgen.h") else Fails (EngConversion "no") in
  exists e0 e, fresh e0 /\ cf_parse_only (en_config e0) = false /\
    do_calls (fun _ => "h") false "" conv (fun _ _ => Done ("h", "c"))
      [CGenerate ["inc"] []; CConfigMut (set_opaquelist (vpush "X")); CGenerate ["inc"] []; CGetRs; CConfigMut (fun c => c)] e0
    = ([(CGenerate ["inc"] [], RFailed (EngConversion "no")); (CConfigMut (set_opaquelist (vpush "X")), RUnit);
        (CGenerate ["inc"] [], RUnit); (CGetRs, RRs (Some ("ffi", "items")))], true, e).
Proof.
  eexists _, _. split; [right; exists [TIdent "generate_all"; TBang; TGroup []]; reflexivity|]. split; [reflexivity|]. vm_compute. reflexivity.
Qed.

(** ** C54 *)

(** A line as cxx writes them: without carriage return or newline. *)
Definition plain (l : string) : Prop := all_chars (fun c => negb (is_nl c) && negb (is_cr c)) l = true.
(** The text of lines, each with a newline. *)
Fixpoint text (ls : list string) : string := match ls with [] => "" | l :: ls' => l +++ nl +++ text ls' end.
Definition system_include (l : string) : Prop := exists r, l = "#include <" +++ r.
(** The lines without the system includes, in order. *)
Inductive without : list string -> list string -> Prop :=
| wo_nil : without [] []
| wo_drop l ls k : system_include l -> without ls k -> without (l :: ls) k
| wo_keep l ls k : ~ system_include l -> without ls k -> without (l :: ls) (l :: k).
(** The lines of a text: those with a newline, and the last if it is not empty. *)
Definition all_lines (ls : list string) (lst : string) : list string := ls ++ if String.eqb lst "" then [] else [lst].

Lemma fields_cons l s : all_chars (fun c => negb (is_nl c)) l = true -> fields (l +++ nl +++ s) = l :: fields s.
Proof.
  induction l as [|c l IH]; intros P; [reflexivity|]. cbn in P. apply andb_prop in P as [P1 P2].
  change (fields (String c (l +++ nl +++ s)) = String c l :: fields s). cbn [fields]. destruct (is_nl c); [discriminate P1|].
  rewrite (IH P2). reflexivity.
Qed.
Lemma strip_cr_plain l : plain l -> strip_cr l = l.
Proof.
  unfold plain. induction l as [|c l IH]; intros P; [reflexivity|]. cbn in P. apply andb_prop in P as [P1 P2]. apply andb_prop in P1 as [_ P1].
  cbn [strip_cr]. destruct l; [destruct (is_cr c); [discriminate P1|reflexivity]|]. rewrite (IH P2). reflexivity.
Qed.
Lemma plain_nl l : plain l -> all_chars (fun c => negb (is_nl c)) l = true.
Proof.
  unfold plain. induction l as [|c l IH]; intros P; [reflexivity|]. cbn in *. apply andb_prop in P as [P1 P2]. apply andb_prop in P1 as [P1 _].
  rewrite P1, (IH P2). reflexivity.
Qed.
Lemma fields_nonempty s : fields s <> [].
Proof. destruct s; cbn; [discriminate|]. destruct (is_nl a); [discriminate|]. destruct (fields s); discriminate. Qed.
Lemma lines_cons l s : plain l -> lines (l +++ nl +++ s) = l :: lines s.
Proof.
  intros P. unfold lines. rewrite (fields_cons l s (plain_nl _ P)). cbn [terminated].
  destruct (fields s) eqn:E; [destruct (fields_nonempty _ E)|]. rewrite (strip_cr_plain _ P). reflexivity.
Qed.
Lemma fields_one l : plain l -> fields l = [l].
Proof.
  intros P. apply plain_nl in P. induction l as [|c l IH]; [reflexivity|]. cbn in P. apply andb_prop in P as [P1 P2]. cbn [fields].
  destruct (is_nl c); [discriminate P1|]. rewrite (IH P2). reflexivity.
Qed.
Lemma lines_text ls last : Forall plain ls -> plain last -> lines (text ls +++ last) = ls ++ (if String.eqb last "" then [] else [last]).
Proof.
  intros F PL. induction F as [|l ls P F IH].
  - cbn [text app]. unfold lines. change ("" +++ last) with last. rewrite (fields_one _ PL). reflexivity.
  - cbn [text]. replace ((l +++ nl +++ text ls) +++ last) with (l +++ nl +++ (text ls +++ last)) by (rewrite !sapp_assoc; reflexivity).
    rewrite (lines_cons _ _ P), IH. reflexivity.
Qed.
Lemma starts_include l : starts_with "#include <" l = true <-> system_include l.
Proof. apply starts_with_spec. Qed.

Lemma filter_without ls : without ls (filter (fun l => negb (starts_with "#include <" l)) ls).
Proof.
  induction ls as [|l ls IH]; [constructor|]. cbn [filter]. destruct (starts_with "#include <" l) eqn:S; cbn [negb].
  - apply wo_drop; [apply starts_include, S|exact IH].
  - apply wo_keep; [|exact IH]. intros X. apply starts_include in X. congruence.
Qed.
Lemma without_unique ls k : without ls k -> k = filter (fun l => negb (starts_with "#include <" l)) ls.
Proof.
  induction 1 as [|l ls k S W IH|l ls k S W IH]; [reflexivity| |]; cbn [filter].
  - apply starts_include in S. rewrite S. exact IH.
  - destruct (starts_with "#include <" l) eqn:X; [apply starts_include in X; contradiction|]. cbn [negb]. f_equal. exact IH.
Qed.

(** With suppression, exactly the lines which begin with an include of a system header are removed, and all the others are kept, in order;
    the last line loses its newline. *)
Theorem c54_exactly_system_includes :
  forall ls lst, Forall plain ls -> plain lst ->
    exists kept, without (all_lines ls lst) kept /\ strip_system_headers (text ls +++ lst) true = join nl kept.
Proof.
  intros ls lst F P. eexists. split; [apply filter_without|].
  unfold strip_system_headers. rewrite (lines_text ls lst F P). reflexivity.
Qed.
Print Assumptions c54_exactly_system_includes.

(** A text with carriage returns before its newlines is treated as if it had none. *)
Fixpoint dos_text (ls : list string) : string :=
  match ls with [] => "" | l :: ls' => l +++ String (Ascii.ascii_of_nat 13) "" +++ nl +++ dos_text ls' end.
Lemma strip_cr_end l : strip_cr (l +++ String (Ascii.ascii_of_nat 13) "") = l.
Proof.
  induction l as [|c l IH]; [reflexivity|]. change (strip_cr (String c (l +++ String (Ascii.ascii_of_nat 13) "")) = String c l).
  cbn [strip_cr]. destruct (l +++ String (Ascii.ascii_of_nat 13) "") eqn:E; [destruct l; discriminate E|]. rewrite IH. reflexivity.
Qed.
Theorem c54_carriage_returns : forall ls, Forall plain ls ->
  strip_system_headers (dos_text ls) true = strip_system_headers (text ls) true.
Proof.
  intros ls F. unfold strip_system_headers. do 2 f_equal. induction F as [|l ls P F IH]; [reflexivity|]. cbn [dos_text text].
  replace (l +++ String (Ascii.ascii_of_nat 13) "" +++ nl +++ dos_text ls) with ((l +++ String (Ascii.ascii_of_nat 13) "") +++ nl +++ dos_text ls)
    by (rewrite !sapp_assoc; reflexivity).
  rewrite (lines_cons l _ P), <- IH. unfold lines at 1. rewrite fields_cons.
  - cbn [terminated]. destruct (fields (dos_text ls)) eqn:E; [destruct (fields_nonempty _ E)|]. rewrite strip_cr_end. unfold lines. rewrite E. reflexivity.
  - apply plain_nl in P. clear - P. induction l as [|c l IH]; [reflexivity|]. cbn in *. apply andb_prop in P as [P1 P2]. rewrite P1, (IH P2). reflexivity.
Qed.
Print Assumptions c54_carriage_returns.
Example c54_dos_case : Forall plain ["#include <a>"; "x;"] /\
  strip_system_headers (dos_text ["#include <a>"; "x;"]) true = "x;".
Proof. split; [repeat constructor | reflexivity]. Qed.

(** Without suppression nothing is changed. *)
Theorem c54_off : forall s, strip_system_headers s false = s.
Proof. reflexivity. Qed.
Print Assumptions c54_off.

Lemma join_text ls : ls <> [] -> join nl ls = text (removelast ls) +++ last ls "".
Proof.
  induction ls as [|l ls IH]; intros N; [congruence|]. destruct ls as [|m ls]; [reflexivity|].
  change (join nl (l :: m :: ls)) with (l +++ nl +++ join nl (m :: ls)). rewrite IH by discriminate.
  change (removelast (l :: m :: ls)) with (l :: removelast (m :: ls)). change (last (l :: m :: ls) "") with (last (m :: ls) "").
  cbn [text]. rewrite !sapp_assoc. reflexivity.
Qed.

(** Doing it again changes nothing, if what is kept does not end with an empty line. *)
Theorem c54_idempotent_partial :
  forall ls lst kept, Forall plain ls -> plain lst -> without (all_lines ls lst) kept -> kept = [] \/ last kept "" <> "" ->
    strip_system_headers (strip_system_headers (text ls +++ lst) true) true = strip_system_headers (text ls +++ lst) true.
Proof.
  intros ls lst kept F P W N. apply without_unique in W.
  assert (E : strip_system_headers (text ls +++ lst) true = join nl kept) by (unfold strip_system_headers; rewrite (lines_text ls lst F P), W; reflexivity).
  assert (FK : Forall plain kept).
  { rewrite W. apply Forall_forall. intros l I. apply filter_In in I as [I _]. apply in_app_iff in I as [I|I].
    - exact (proj1 (Forall_forall _ _) F l I).
    - destruct (String.eqb lst ""); [destruct I|]. destruct I as [<-|[]]. exact P. }
  rewrite E. destruct N as [Z|L]; [rewrite Z; reflexivity|].
  assert (NE : kept <> []) by (intros Z; rewrite Z in L; apply L; reflexivity).
  unfold strip_system_headers. rewrite (join_text kept NE) at 1.
  assert (FR : Forall plain (removelast kept) /\ plain (last kept "")).
  { rewrite (app_removelast_last "" NE) in FK. apply Forall_app in FK as [A B]. split; [exact A|]. inversion B; assumption. }
  rewrite (lines_text _ _ (proj1 FR) (proj2 FR)). destruct (String.eqb_spec (last kept "") "") as [X|_]; [contradiction|].
  rewrite <- (app_removelast_last "" NE). f_equal. rewrite W.
  generalize (all_lines ls lst). intros l. induction l as [|a l IH]; [reflexivity|]. cbn [filter].
  destruct (negb (starts_with "#include <" a)) eqn:S; [|exact IH]. cbn [filter]. rewrite S, IH. reflexivity.
Qed.
Print Assumptions c54_idempotent_partial.

(** An empty line at the end is lost by each further removal; and carriage returns before newlines are lost. *)
Theorem c54_idempotent_refuted :
  exists s, strip_system_headers (strip_system_headers s true) true <> strip_system_headers s true.
Proof. exists ("int x;" +++ nl +++ nl). vm_compute. discriminate. Qed.
Print Assumptions c54_idempotent_refuted.
(** A carriage return before a newline is lost although no line is a system include. *)
Theorem c54_other_text_kept_refuted :
  exists s, (forall l, In l (fields s) -> ~ system_include l) /\ strip_system_headers s true <> s.
Proof.
  exists ("int x;" +++ String (Ascii.ascii_of_nat 13) nl). split; [|vm_compute; discriminate].
  intros l I [r E]. vm_compute in I. destruct I as [<-|[<-|[]]]; discriminate E.
Qed.
Print Assumptions c54_other_text_kept_refuted.

Example c54_case :
  without (all_lines ["#pragma once"; "#include <memory>"; "x;"] "") ["#pragma once"; "x;"] /\
  strip_system_headers (text ["#pragma once"; "#include <memory>"; "#include ""a.h"""; " #include <b>"; "x;"]) true
  = join nl ["#pragma once"; "#include ""a.h"""; " #include <b>"; "x;"].
Proof.
  split; [|reflexivity]. apply wo_keep; [intros [r X]; discriminate X|]. apply wo_drop; [exists "memory>"; reflexivity|].
  apply wo_keep; [intros [r X]; discriminate X|constructor].
Qed.
