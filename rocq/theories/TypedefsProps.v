(** C20: following typedefs terminates and finds the end of the chain, or the reason there is none. *)
From Coq Require Import Relations.
From Verif Require Import Base QNamesModel ApiModel TypesModel TypesSpec TypedefsModel TypedefsProofs.

Section C20.
  Variable tds : list (qname * ty).
  Hypothesis tds_unique : NoDup (map fst tds).

  Definition declared (n : qname) : Prop := exists t, In (n, t) tds.
  (** [a] is declared as an alias of the type named [b]. *)
  Definition alias (a b : qname) : Prop := exists t, In (a, t) tds /\ refers_to t b.
  Definition chain := clos_refl_trans qname alias.
  Definition proper_chain := clos_trans qname alias.
  (** Names bindgen makes up for anonymous namespaces. *)
  Definition hidden (q : qname) : Prop := exists s t, In s (qn_ns q ++ [qn_item q]) /\ s = "_bindgen_mod" +++ t.
  (** The outcome, for every map and name. *)
  Definition outcome_correct (tn : qname) (r : td_res) : Prop :=
    match r with
    | TdOk None => ~ declared tn
    | TdOk (Some t) =>
        (exists n, chain tn n /\ In (n, t) tds) /\ (forall b, refers_to t b -> ~ declared b) /\ ~ bare_module t /\
        (forall m, proper_chain tn m -> ~ hidden m)
    | TdRecursive n => chain tn n /\ proper_chain n n /\ (forall m, proper_chain tn m -> ~ hidden m)
    | TdAnonymous => exists m, proper_chain tn m /\ hidden m
    | TdPanic => exists n t, chain tn n /\ In (n, t) tds /\ bare_module t
    | TdFuel => False
    end.

  Lemma hidden_spec lead id args q : refers_to (TPath lead id args) q ->
    (existsb (starts_with "_bindgen_mod") (segs lead id) = true <-> hidden q).
  Proof.
    intros R. unfold hidden, segs. rewrite existsb_exists. split.
    - intros (s & Hs & P). apply starts_with_spec in P. destruct P as [t ->].
      exists ("_bindgen_mod" +++ t), t. split; [|reflexivity].
      inversion R; subst; cbn [qn_ns qn_item]; [|exact Hs].
      destruct Hs as [Hs|Hs]; [|exact Hs]. exfalso. destruct H3 as [->| ->]; discriminate Hs.
    - intros (s & t & Hs & ->). exists ("_bindgen_mod" +++ t). split; [|apply starts_with_spec; eauto].
      inversion R; subst; cbn [qn_ns qn_item] in Hs; [right; exact Hs | exact Hs].
  Qed.
  Lemma alias_fun a b c : alias a b -> alias a c -> b = c.
  Proof.
    intros (t & H & R) (t' & H' & R'). apply (in_nodup_qget _ _ _ tds_unique) in H, H'.
    rewrite H in H'. injection H' as <-.
    inversion R; subst; inversion R'; subst; cbn in *; try reflexivity; intuition congruence.
  Qed.
  Lemma chain_snoc a b c : chain a b -> alias b c -> chain a c.
  Proof. intros H1 H2. eapply rt_trans; [exact H1 | apply rt_step, H2]. Qed.
  Lemma chain_proper a b c : chain a b -> alias b c -> proper_chain a c.
  Proof.
    intros H1 H2. apply clos_rt_rtn1 in H1. revert c H2. induction H1; intros c' H2; [apply t_step, H2|].
    eapply t_trans; [apply IHclos_refl_trans_n1, H | apply t_step, H2].
  Qed.
  Lemma closed_proper (S : qname -> Prop) a :
    (forall e b, (e = a \/ S e) -> alias e b -> S b) -> forall m, proper_chain a m -> S m.
  Proof.
    intros C m H. apply clos_trans_tn1 in H. induction H; [apply (C a); auto | apply (C y); auto].
  Qed.

  Lemma loop_correct start : forall fuel enc tn prev,
    chain start tn ->
    (forall e, In e enc -> ~ hidden e) ->
    (forall e, e = start \/ In e enc -> chain e tn) ->
    (forall e b, e = start \/ In e enc -> alias e b -> In b enc \/ e = tn) ->
    tn = start \/ In tn enc ->
    NoDup enc -> (forall e, In e enc -> e <> tn -> declared e) ->
    (match prev with
     | None => tn = start
     | Some t => refers_to t tn /\ exists n, chain start n /\ In (n, t) tds
     end) ->
    length tds + 2 <= fuel + length enc ->
    outcome_correct start (resolve_loop fuel tds enc tn prev).
  Proof.
    induction fuel as [|fuel IH]; intros enc tn prev I1 I3 I4 I5 I6 I8 I9 I7 F; cbn [resolve_loop].
    - exfalso. assert (X : NoDup (filter (fun e => negb (qn_eqb e tn)) enc)) by (apply NoDup_filter, I8).
      assert (Y : length enc <= S (length (filter (fun e => negb (qn_eqb e tn)) enc))).
      { clear -I8. induction I8 as [|e enc He N IH]; [cbn; lia|]. cbn [filter length].
        destruct (qn_eqb e tn) eqn:E; cbn [negb length]; [|lia].
        apply qn_eqb_eq in E; subst e. replace (filter _ enc) with enc; [lia|].
        symmetry. clear IH. induction enc as [|x enc IHe]; [reflexivity|]. inversion N; subst. cbn [filter].
        destruct (qn_eqb x tn) eqn:E; [apply qn_eqb_eq in E; subst; exfalso; apply He; left; reflexivity|].
        cbn [negb]. f_equal. apply IHe; [intros C; apply He; right; exact C | assumption]. }
      assert (Z : incl (filter (fun e => negb (qn_eqb e tn)) enc) (map fst tds)).
      { intros e He. apply filter_In in He. destruct He as [He Hn]. apply negb_true_iff, qn_eqb_neq in Hn.
        destruct (I9 e He Hn) as [t Ht]. apply in_map_iff. exists (e, t); auto. }
      pose proof (NoDup_incl_length X Z) as L. rewrite map_length in L. lia.
    - destruct (qget tn tds) as [t|] eqn:G.
      + apply qget_in in G.
        assert (STOP : (forall b, ~ refers_to t b) -> ~ bare_module t -> outcome_correct start (TdOk (Some t))).
        { intros NR NB. cbn. split; [exists tn; auto|]. split; [intros b R; destruct (NR b R)|]. split; [exact NB|].
          intros m Hm. apply I3. revert m Hm. apply closed_proper. intros e b He Hb.
          destruct (I5 e b He Hb) as [H| ->]; [exact H|]. exfalso.
          destruct Hb as (t' & Ht' & R). apply (in_nodup_qget _ _ _ tds_unique) in G, Ht'.
          rewrite G in Ht'. injection Ht' as <-. exact (NR b R). }
        destruct t as [lead id args|m lt u|m u|u n|s|s];
          try (apply STOP; [intros b R; inversion R | intros (m' & a' & X & _); discriminate X]).
        clear STOP. destruct (path_name lead id) as [new|] eqn:PN.
        * apply (path_name_spec lead id args) in PN.
          assert (A : alias tn new) by (eexists; eauto).
          destruct (qmem new enc) eqn:QM.
          -- apply qmem_In in QM. cbn. split; [exact I1|]. split.
             ++ assert (C : chain new tn) by (apply I4; right; exact QM).
                apply clos_rt_rtn1 in C.
                assert (T : proper_chain tn tn \/ new = tn).
                { inversion C; subst; [right; reflexivity|]. left.
                  eapply t_trans; [apply t_step, A|]. eapply chain_proper; [apply clos_rtn1_rt; eassumption | eassumption]. }
                destruct T as [T|T]; [exact T|]. subst new. apply t_step, A.
             ++ intros m Hm. apply I3. revert m Hm. apply closed_proper. intros e b He Hb.
                destruct (I5 e b He Hb) as [H| ->]; [exact H|]. rewrite <- (alias_fun _ _ _ A Hb). exact QM.
          -- apply qmem_nIn in QM. destruct (existsb (starts_with "_bindgen_mod") (segs lead id)) eqn:EX.
             ++ apply (hidden_spec lead id args new PN) in EX. cbn. exists new. split; [eapply chain_proper; eauto | exact EX].
             ++ assert (NH : ~ hidden new) by (intros H; apply (hidden_spec lead id args new PN) in H; congruence).
                apply IH.
                ** eapply chain_snoc; eauto.
                ** intros e He. apply qinsert_In in He. destruct He as [->|He]; auto.
                ** intros e He. rewrite qinsert_In in He.
                   destruct (qname_eq_dec e new) as [->|Ne]; [apply rt_refl|].
                   assert (K : e = start \/ In e enc) by tauto. eapply chain_snoc; [apply I4, K | exact A].
                ** intros e b He Hb. rewrite qinsert_In in *.
                   destruct (qname_eq_dec e new) as [->|Ne]; [right; reflexivity|].
                   assert (K : e = start \/ In e enc) by tauto. left.
                   destruct (I5 e b K Hb) as [H| ->]; [right; exact H|]. left. apply (alias_fun _ _ _ Hb A).
                ** right. apply qinsert_In. left; reflexivity.
                ** unfold qinsert. rewrite (proj2 (qmem_nIn _ _) QM). apply NoDup_app_intro; [assumption | repeat constructor; intros [] | intros x Hx [<-|[]]; exact (QM Hx)].
                ** intros e He Hn. apply qinsert_In in He. destruct He as [->|He]; [congruence|].
                   destruct (qname_eq_dec e tn) as [->|Ne]; [eexists; exact G | apply I9; assumption].
                ** split; [exact PN|]. exists tn; auto.
                ** unfold qinsert. rewrite (proj2 (qmem_nIn _ _) QM), app_length. cbn [length]. lia.
        * apply (path_name_none lead id args) in PN. cbn. exists tn. eauto.
      + apply qget_none in G.
        assert (ND : ~ declared tn) by (intros [t Ht]; apply G, in_map_iff; exists (tn, t); auto).
        destruct prev as [t|]; cbn; [|subst; exact ND]. destruct I7 as [R Hn]. split; [exact Hn|].
        assert (U : forall b, refers_to t b -> b = tn).
        { intros b R'. inversion R; subst; inversion R'; subst; cbn in *; try reflexivity; intuition congruence. }
        split; [intros b R'; rewrite (U b R'); exact ND|]. split.
        * intros (m & a & -> & M). inversion R; subst; cbn in *; intuition congruence.
        * intros m Hm. apply I3. revert m Hm. apply closed_proper. intros e b He Hb.
          destruct (I5 e b He Hb) as [H| ->]; [exact H|]. exfalso. destruct Hb as (t' & Ht' & _). apply ND. exists t'; exact Ht'.
  Qed.

  Theorem resolve_correct tn : outcome_correct tn (resolve_typedef tds tn).
  Proof.
    apply loop_correct.
    - apply rt_refl.
    - intros e [].
    - intros e [->|[]]. apply rt_refl.
    - intros e b [->|[]] _. right; reflexivity.
    - left; reflexivity.
    - constructor.
    - intros e [].
    - reflexivity.
    - cbn [length]; lia.
  Qed.

  Lemma chain_compare a b c : chain a b -> chain a c -> chain b c \/ chain c b.
  Proof.
    intros H. apply clos_rt_rt1n in H. induction H as [a|a x b Hx H IH]; intros Hc; [left; exact Hc|].
    apply clos_rt_rt1n in Hc. inversion Hc as [|y z Hy Hyc]; subst.
    - right. eapply rt_trans; [apply rt_step, Hx | apply clos_rt1n_rt, H].
    - rewrite (alias_fun _ _ _ Hx Hy) in *. apply IH. apply clos_rt1n_rt, Hyc.
  Qed.
  Lemma cycle_forever n : proper_chain n n -> forall m, chain n m -> exists b, alias m b.
  Proof.
    intros C m H. assert (X : proper_chain m m \/ exists b, alias m b).
    { apply clos_rt_rtn1 in H. induction H as [|y z Hyz H IH]; [left; exact C|].
      destruct IH as [P|[b Hb]]; [|]; left.
      - apply clos_trans_t1n in P. inversion P as [y0 S|y0 z0 S P']; subst.
        + rewrite <- (alias_fun _ _ _ S Hyz) in *. apply t_step, S.
        + rewrite (alias_fun _ _ _ S Hyz) in P'. apply clos_t1n_trans in P'. eapply t_trans; [exact P' | apply t_step, Hyz].
      - (* on the cycle through n *)
        assert (E : proper_chain y y); [|].
        { apply clos_rtn1_rt in H. clear -C H tds_unique. apply clos_rt_rtn1 in H. induction H as [|y z Hyz H IH]; [exact C|].
          apply clos_trans_t1n in IH. inversion IH as [y0 S|y0 z0 S P']; subst.
          - rewrite <- (alias_fun _ _ _ S Hyz) in *. apply t_step, S.
          - rewrite (alias_fun _ _ _ S Hyz) in P'. apply clos_t1n_trans in P'. eapply t_trans; [exact P' | apply t_step, Hyz]. }
        apply clos_trans_t1n in E. inversion E as [y0 S|y0 z0 S P']; subst.
        + rewrite <- (alias_fun _ _ _ S Hyz) in *. apply t_step, S.
        + rewrite (alias_fun _ _ _ S Hyz) in P'. apply clos_t1n_trans in P'. eapply t_trans; [exact P' | apply t_step, Hyz]. }
    destruct X as [P|E]; [|exact E]. apply clos_trans_t1n in P. inversion P; subst; eauto.
  Qed.
End C20.

(** Always an answer, and always the right one. *)
Theorem c20_resolution_correct : forall tds tn, NoDup (map fst tds) ->
  outcome_correct tds tn (resolve_typedef tds tn).
Proof. intros. apply resolve_correct; assumption. Qed.
Print Assumptions c20_resolution_correct.

(** A cycle is reported exactly when the chain runs into one (and passes no anonymous namespace,
    which is reported as such). *)
Theorem c20_recursive_exactly_when_cyclic : forall tds tn, NoDup (map fst tds) ->
  (exists n, resolve_typedef tds tn = TdRecursive n) <->
  (exists n, chain tds tn n /\ proper_chain tds n n) /\ (forall m, proper_chain tds tn m -> ~ hidden m).
Proof.
  intros tds tn N. pose proof (resolve_correct tds N tn) as R. split.
  - intros [n E]. rewrite E in R. destruct R as (R1 & R2 & R3). split; [exists n; auto | exact R3].
  - intros [(n & C & P) NH].
    assert (F : forall e, chain tds tn e -> exists b, alias tds e b).
    { intros e He. destruct (chain_compare tds N tn n e C He) as [H|H].
      - eapply cycle_forever; eauto.
      - apply clos_rt_rt1n in H. inversion H; subst; [|eauto].
        apply clos_trans_t1n in P. inversion P; subst; eauto. }
    destruct (resolve_typedef tds tn) as [[t|]|n'| | |] eqn:E; cbn in R.
    + exfalso. destruct R as ((e & He & Ht) & Te & _). destruct (F e He) as [b Hb].
      destruct Hb as (t' & Ht' & R'). apply (in_nodup_qget _ _ _ N) in Ht, Ht'. rewrite Ht in Ht'. injection Ht' as <-.
      assert (X : chain tds tn b).
      { eapply chain_snoc; [exact He|]. exists t. split; [apply qget_in, Ht | exact R']. }
      destruct (F b X) as [b' (t2 & Ht2 & _)]. apply (Te b R'). exists t2; exact Ht2.
    + exfalso. destruct (F tn (rt_refl _ _ _)) as [b (t & Ht & _)]. apply R. exists t; exact Ht.
    + exists n'; reflexivity.
    + exfalso. destruct R as (m & Hm & H). exact (NH m Hm H).
    + exfalso. destruct R as (e & t & He & Ht & (m & a & -> & M)). destruct (F e He) as [b (t' & Ht' & R')].
      apply (in_nodup_qget _ _ _ N) in Ht, Ht'. rewrite Ht in Ht'. injection Ht' as <-.
      inversion R'; subst; cbn in *; tauto.
    + destruct R.
Qed.
Print Assumptions c20_recursive_exactly_when_cyclic.

(** The result does not depend on the order in which typedefs were declared. *)
Theorem c20_order_independent : forall tds tds' tn, NoDup (map fst tds) -> Permutation tds tds' ->
  resolve_typedef tds tn = resolve_typedef tds' tn.
Proof.
  intros tds tds' tn N P. unfold resolve_typedef. rewrite (Permutation_length P).
  assert (N' : NoDup (map fst tds')) by (eapply Permutation_NoDup; [apply Permutation_map, P | exact N]).
  assert (G : forall k, qget k tds = qget k tds').
  { intros k. destruct (qget k tds) as [v|] eqn:E.
    - symmetry. apply in_nodup_qget; [exact N'|]. eapply Permutation_in; [exact P | apply qget_in, E].
    - destruct (qget k tds') as [v|] eqn:E'; [|reflexivity]. apply qget_in in E'.
      apply Permutation_sym in P. apply (Permutation_in _ P) in E'. apply (in_nodup_qget _ _ _ N) in E'. congruence. }
  generalize (length tds' + 2) as fuel. intros fuel. generalize (@nil qname) as enc, (@None ty) as prev. revert tn.
  induction fuel as [|fuel IH]; intros tn enc prev; [reflexivity|]. cbn [resolve_loop]. rewrite G.
  destruct (qget tn tds') as [[]|]; try reflexivity. destruct (path_name _ _); [|reflexivity].
  destruct (qmem _ _); [reflexivity|]. destruct (existsb _ _); [reflexivity | apply IH].
Qed.
Print Assumptions c20_order_independent.

Definition ex_tds : list (qname * ty) :=
  [ (QN ["n"] "A", TPath ["root"; "n"] "B" []); (QN ["n"] "B", TPath ["output"] "C" [TPath [] "u8" []]);
    (QN [] "P", TPath ["root"] "Q" []); (QN [] "Q", TPtr true (TPath ["root"] "Q" []));
    (QN [] "X", TPath ["root"] "Y" []); (QN [] "Y", TPath ["root"] "Z" []); (QN [] "Z", TPath ["root"] "Y" []);
    (QN [] "H", TPath ["root"; "_bindgen_mod_id_7"] "I" []) ].
Example c20_nonvacuous :
  NoDup (map fst ex_tds) /\
  map (resolve_typedef ex_tds) [QN ["n"] "A"; QN [] "P"; QN [] "X"; QN [] "H"; QN [] "absent"] =
  [ TdOk (Some (TPath ["output"] "C" [TPath [] "u8" []])); TdOk (Some (TPtr true (TPath ["root"] "Q" [])));
    TdRecursive (QN [] "Z"); TdAnonymous; TdOk None ].
Proof. split; [repeat constructor; cbn; intuition discriminate | reflexivity]. Qed.
