(** Proofs about allowlist garbage collection. *)
From Verif Require Import Base ApiModel ApiVecModel ApiVecProofs GcModel.

(** Reachability: the specification. *)
Inductive reach (root : api -> bool) (l : list api) : api -> Prop :=
| reach_root a : In a l -> root a = true -> reach root l a
| reach_dep a b : reach root l a -> In b l -> In (aname b) (deps a) -> reach root l b.

Section P.
Variable builtin : string -> bool.
Notation gc_loop := (gc_loop builtin).
Notation gc_by_typename := (gc_by_typename builtin).

(** Termination, on any map at all. *)
Lemma weight_qdel k m v : qget k m = Some v ->
  gc_weight (qdel k m) + length (flat_map deps (av_apis v)) <= gc_weight m.
Proof.
  unfold gc_weight.
  assert (L : forall m, list_sum (map (fun e : qname * apivec => length (flat_map deps (av_apis (snd e)))) (qdel k m))
    <= list_sum (map (fun e => length (flat_map deps (av_apis (snd e)))) m)).
  { clear. intros m; induction m as [|[k' v'] m IH]; simpl; [lia|].
    destruct (qn_eqb k k'); simpl; lia. }
  induction m as [|[k' v'] m IH]; simpl; [discriminate|].
  destruct (qn_eqb k k') eqn:E.
  - intros H; inversion H; subst. specialize (L m). lia.
  - intros H. specialize (IH H). simpl. lia.
Qed.
Lemma gc_loop_total : forall fuel todos byt done output,
  length todos + gc_weight byt < fuel -> gc_loop fuel todos byt done output <> GcFuel.
Proof.
  induction fuel as [|fuel IH]; intros todos byt done output L; [lia|]. simpl.
  destruct todos as [|t todos]; [discriminate|]. simpl in L.
  destruct (qmem t done); [apply IH; lia|].
  destruct (qget t byt) as [v|] eqn:E; apply IH; [|lia].
  rewrite app_length. apply weight_qdel in E. lia.
Qed.

(** Contents of the map for distinct names. *)
Definition lookup (n : qname) (l : list api) : option api := find (fun a => qn_eqb (aname a) n) l.
Definition single (a : api) : apivec := av_push builtin av_new a.

Lemma single_apis a : av_apis (single a) = [a].
Proof. reflexivity. Qed.

Lemma lookup_Some n l a : NoDup (map aname l) -> (lookup n l = Some a <-> In a l /\ aname a = n).
Proof.
  intros N. unfold lookup. split.
  - intros H. apply find_some in H. destruct H as [H1 H2]. apply qn_eqb_eq in H2. auto.
  - intros [Hin Hn]. destruct (find _ l) as [b|] eqn:E.
    + apply find_some in E. destruct E as [Hb En]. apply qn_eqb_eq in En.
      f_equal. eapply NoDup_map_inj_in; eauto. congruence.
    + apply find_none with (x := a) in E; [|exact Hin]. apply qn_eqb_neq in E. congruence.
Qed.
Lemma lookup_None n l : lookup n l = None <-> ~ In n (map aname l).
Proof.
  unfold lookup. split.
  - intros E H. apply in_map_iff in H. destruct H as [a [<- Ha]].
    apply find_none with (x := a) in E; [|exact Ha]. apply qn_eqb_neq in E. congruence.
  - intros H. destruct (find _ l) as [b|] eqn:E; [|reflexivity].
    apply find_some in E. destruct E as [Hb En]. apply qn_eqb_eq in En. elim H. subst n. now apply in_map.
Qed.
Lemma lookup_snoc n l a : lookup n (l ++ [a]) =
  match lookup n l with Some b => Some b | None => if qn_eqb (aname a) n then Some a else None end.
Proof.
  unfold lookup. induction l as [|b l IH]; simpl; [reflexivity|].
  destruct (qn_eqb (aname b) n); [reflexivity | exact IH].
Qed.

Lemma by_typename_spec l n : NoDup (map aname l) ->
  qget n (gc_by_typename l) = option_map single (lookup n l).
Proof.
  unfold gc_by_typename. revert n. induction l as [|a l IH] using rev_ind; intros n N; [reflexivity|].
  rewrite map_app in N. apply NoDup_app_inv in N. destruct N as (N1 & _ & N2).
  assert (IH' : forall n, _) by exact (fun n => IH n N1); clear IH; rename IH' into IH. rewrite fold_left_app. cbn [fold_left]. unfold gc_insert.
  assert (Hnone : lookup (aname a) l = None).
  { apply lookup_None. intros H. eapply N2; [exact H | left; reflexivity]. }
  rewrite lookup_snoc. destruct (qname_eq_dec n (aname a)) as [->|Ne].
  - rewrite qget_qset_same, IH, Hnone, qn_eqb_refl. reflexivity.
  - rewrite qget_qset_other by exact Ne. rewrite IH.
    destruct (lookup n l); [reflexivity|].
    assert (qn_eqb (aname a) n = false) as -> by (apply qn_eqb_neq; congruence). reflexivity.
Qed.

(** The loop invariant. *)
Record gc_inv root (l : list api) (todos : list qname) (byt : list (qname * apivec))
    (done : list qname) (output : apivec) : Prop := {
  gi_byt : forall n, qget n byt = if qmem n done then None else option_map single (lookup n l);
  gi_wf : av_wf output;
  gi_out : forall a, In a (av_apis output) <-> In a l /\ In (aname a) done;
  gi_sound : forall a, In a l -> In (aname a) todos \/ In (aname a) done -> reach root l a;
  gi_roots : forall a, In a l -> root a = true -> In (aname a) todos \/ In (aname a) done;
  gi_closed : forall a d, In a (av_apis output) -> In d (deps a) -> In d todos \/ In d done
}.

Lemma qmem_qinsert n t done : qmem n (qinsert t done) = qn_eqb n t || qmem n done.
Proof.
  destruct (qmem n (qinsert t done)) eqn:E.
  - apply qmem_In, qinsert_In in E. symmetry. apply orb_true_iff.
    destruct E as [->|E]; [left; apply qn_eqb_refl | right; apply qmem_In, E].
  - apply qmem_nIn in E. rewrite qinsert_In in E. symmetry. apply orb_false_iff.
    split; [apply qn_eqb_neq | apply qmem_nIn]; tauto.
Qed.

Lemma gc_loop_spec root l : NoDup (map aname l) -> forall fuel todos byt done output out,
  gc_inv root l todos byt done output ->
  gc_loop fuel todos byt done output = GcDone out ->
  av_wf out /\ forall a, In a (av_apis out) <-> reach root l a.
Proof.
  intros N. induction fuel as [|fuel IH]; intros todos byt done output out I E; [discriminate|].
  simpl in E. destruct todos as [|t todos].
  - inversion E; subst out. destruct I as [I1 I2 I3 I4 I5 I6]. split; [exact I2|]. intros a. split.
    + intros H. apply I3 in H. apply I4; tauto.
    + intros R. induction R as [a Ha Hr|a b Ra IHa Hb Hd].
      * apply I3. split; [exact Ha|]. destruct (I5 a Ha Hr) as [[]|H]; exact H.
      * apply I3. split; [exact Hb|]. destruct (I6 _ _ IHa Hd) as [[]|H]; exact H.
  - destruct I as [I1 I2 I3 I4 I5 I6]. destruct (qmem t done) eqn:D.
    + apply IH in E; [exact E|]. apply qmem_In in D. constructor; auto.
      * intros a Ha [H|H]; apply I4; auto. left; right; exact H.
      * intros a Ha Hr. destruct (I5 a Ha Hr) as [[<-|H]|H]; auto.
      * intros a d Ha Hd. destruct (I6 a d Ha Hd) as [[<-|H]|H]; auto.
    + assert (Bt := I1 t). rewrite D in Bt. apply qmem_nIn in D as Dn.
      destruct (lookup t l) as [b|] eqn:L; rewrite Bt in E; cbn [option_map] in E.
      * apply (lookup_Some t l b N) in L as [Hb Hbn].
        rewrite single_apis in E. cbn [flat_map] in E. rewrite app_nil_r in E.
        unfold av_append in E. cbn [fst] in E. rewrite ?single_apis in E.
        assert (F : ~ In (aname b) (map aname (av_apis output))).
        { rewrite Hbn. intros H. apply in_map_iff in H. destruct H as [c [Hc Hin]].
          apply I3 in Hin. destruct Hin as [_ Hin]. rewrite Hc in Hin. contradiction. }
        assert (PA := push_fresh builtin output b I2 F).
        change (av_extend builtin output [b]) with (av_push builtin output b) in E.
        apply IH in E; [exact E|]. constructor.
        -- intros n. rewrite qmem_qinsert. destruct (qname_eq_dec n t) as [->|Ne].
           ++ rewrite qget_qdel_same, qn_eqb_refl. reflexivity.
           ++ rewrite qget_qdel_other by exact Ne. apply qn_eqb_neq in Ne. rewrite Ne. apply I1.
        -- apply av_wf_push, I2.
        -- intros a. rewrite PA, in_app_iff, I3, qinsert_In. simpl. split.
           ++ intros [[H1 H2]|[<-|[]]]; [auto | split; [exact Hb | left; exact Hbn]].
           ++ intros [H1 [H2|H2]]; [|auto]. right; left.
              eapply NoDup_map_inj_in; eauto. congruence.
        -- intros a Ha H. rewrite in_app_iff, qinsert_In in H.
           destruct H as [[H|H]|[H|H]].
           ++ apply I4; [exact Ha | left; right; exact H].
           ++ apply reach_dep with b; [apply I4; [exact Hb | left; left; congruence] | exact Ha | exact H].
           ++ apply I4; [exact Ha | left; left; congruence].
           ++ apply I4; auto.
        -- intros a Ha Hr. rewrite in_app_iff, qinsert_In. destruct (I5 a Ha Hr) as [[H|H]|H]; auto.
        -- intros a d Ha Hd. rewrite in_app_iff, qinsert_In.
           rewrite PA, in_app_iff in Ha. destruct Ha as [Ha|[<-|[]]].
           ++ destruct (I6 a d Ha Hd) as [[H|H]|H]; auto.
           ++ auto.
      * apply lookup_None in L.
        apply IH in E; [exact E|]. constructor.
        -- intros n. rewrite qmem_qinsert. destruct (qname_eq_dec n t) as [->|Ne].
           ++ rewrite qn_eqb_refl. exact Bt.
           ++ apply qn_eqb_neq in Ne. rewrite Ne. apply I1.
        -- exact I2.
        -- intros a. rewrite I3, qinsert_In. split; [tauto|]. intros [H1 [H2|H2]]; [|auto].
           elim L. rewrite <- H2. now apply in_map.
        -- intros a Ha H. rewrite qinsert_In in H. destruct H as [H|[H|H]].
           ++ apply I4; [exact Ha | left; right; exact H].
           ++ elim L. rewrite <- H. now apply in_map.
           ++ apply I4; auto.
        -- intros a Ha Hr. rewrite qinsert_In. destruct (I5 a Ha Hr) as [[H|H]|H]; auto.
        -- intros a d Ha Hd. rewrite qinsert_In. destruct (I6 a d Ha Hd) as [[H|H]|H]; auto.
Qed.
End P.

Section P2.
Variable builtin : string -> bool.
Variable on_allowlist : string -> bool.
Variable to_cpp_name : qname -> string.
Notation gc := (gc builtin on_allowlist to_cpp_name).
Notation root := (gc_root on_allowlist to_cpp_name).

Lemma gc_total l : gc l <> GcFuel.
Proof. apply gc_loop_total. lia. Qed.

Lemma gc_spec l out : NoDup (map aname l) -> gc l = GcDone out ->
  av_wf out /\ forall a, In a (av_apis out) <-> reach root l a.
Proof.
  intros N E. eapply gc_loop_spec; [exact N | | exact E]. constructor.
  - intros n. simpl. apply by_typename_spec, N.
  - apply av_wf_new.
  - intros a. simpl. tauto.
  - intros a Ha [H|[]]. apply in_map_iff in H. destruct H as [b [En Hb]]. apply filter_In in Hb.
    destruct Hb as [Hb Hr]. assert (a = b) as -> by (eapply NoDup_map_inj_in; eauto).
    apply reach_root; auto.
  - intros a Ha Hr. left. apply in_map, filter_In. auto.
  - intros a d [].
Qed.
Lemma reach_in l a : reach root l a -> In a l.
Proof. intros H; inversion H; auto. Qed.
End P2.
