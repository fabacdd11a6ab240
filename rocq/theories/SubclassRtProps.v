(** C42 and C43: the life of Rust subclasses of C++ classes.

    The theorems speak of every history of the program around: any list of events of
    [SubclassRtModel.event] from the empty state. Only histories in which a Rust
    object is moved out of its cell ([EReplace]) are left out of the positive
    theorems; [c42_moved_out_refuted] shows why. *)
From Verif Require Import Base SubclassRtModel SubclassRtProofs.
Open Scope list_scope.

Definition no_replace (es : list event) : Prop := forall e k, In e es -> e <> EReplace k.

(** [s] is the state after the history [es]. *)
Definition reaches (es : list event) (s : state) : Prop :=
  no_replace es /\ run init es = Some (Next s).

Definition mode_of (s : state) (i : nat) (m : mode) : Prop := nth_error (modes s) i = Some m.
Definition object_alive (s : state) (i : nat) : Prop := exists c, nth_error (cells s) i = Some (Some c).
Definition object_destroyed (s : state) (i : nat) : Prop := nth_error (cells s) i = Some None.
Definition peer_alive (s : state) (i : nat) : Prop := exists o, nth_error (peers s) i = Some (PLive o).
Definition peer_destroyed (s : state) (i : nat) : Prop := nth_error (peers s) i = Some PFreed.
(** Code of the object is running: a constructor, a borrow or an upcall. *)
Definition busy (s : state) (i : nat) : Prop := exists f, In f (frames s) /\ frame_cell f = i.

Lemma run_app s es1 es2 :
  run s (es1 ++ es2) =
  match run s es1 with Some (Next s') => run s' es2 | r => r end.
Proof.
  revert s; induction es1 as [|e es1 IH]; intro s; [reflexivity|]. cbn [app run].
  destruct (step s e) as [[s1| |x]|]; auto.
Qed.

Lemma run_inv s es r :
  inv s -> no_replace es -> run s es = Some r ->
  match r with
  | Next s' => inv s'
  | Panics => True
  | Fault x => x = UseAfterFree /\
      exists es1 e es2 s1, es = es1 ++ e :: es2 /\ run s es1 = Some (Next s1) /\ inv s1 /\ fault_ok s1 e
  end.
Proof.
  revert s; induction es as [|e es IH]; intros s I NR; cbn [run].
  - intros [= <-]. exact I.
  - destruct (step s e) as [r0|] eqn:S0; [|discriminate].
    pose proof (step_ok s e r0 I (fun k => NR e k (or_introl eq_refl)) S0) as H.
    destruct r0 as [s1| |x].
    + intro R. assert (NR' : no_replace es) by (intros e' k Hi; exact (NR e' k (or_intror Hi))).
      specialize (IH s1 (proj1 H) NR' R). destruct r as [s'| |x]; auto.
      destruct IH as (-> & es1 & e1 & es2 & s2 & -> & R1 & I2 & F). split; [reflexivity|].
      exists (e :: es1), e1, es2, s2. split; [reflexivity|]. split; [|auto]. cbn [run]. now rewrite S0.
    + intros [= <-]. exact Logic.I.
    + intros [= <-]. destruct H as [-> H]. split; [reflexivity|]. exists [], e, es, s. auto.
Qed.

Lemma reaches_inv es s : reaches es s -> inv s.
Proof. intros [NR R]. exact (run_inv init es (Next s) inv_init NR R). Qed.

(** ** C42: memory safety *)

(** Whatever the program does, memory is misused only in two situations: code of a
    C++-owned object uses the peer, or deletes itself, after C++ destroyed that peer
    while the code was running; or C++ code takes a self-owned object, which nothing
    else refers to, out of its own hands. Nothing is ever destroyed twice. *)
Theorem c42_faults_classified es f :
  no_replace es -> run init es = Some (Fault f) ->
  f = UseAfterFree /\
  exists es1 e es2 s, es = es1 ++ e :: es2 /\ reaches es1 s /\
  ((exists k fr i, (e = EUse k \/ e = EDelete k) /\ nth_error (frames s) k = Some fr /\ frame_cell fr = i /\
      mode_of s i CppOwned /\ peer_destroyed s i /\ object_alive s i) \/
   (exists i, e = ECppRemove i /\ mode_of s i SelfOwned /\ ~ In i (rcs s) /\ ~ busy s i)).
Proof.
  intros NR R. destruct (run_inv init es (Fault f) inv_init NR R) as (-> & es1 & e & es2 & s & -> & R1 & I & F).
  split; [reflexivity|]. exists es1, e, es2, s. split; [reflexivity|]. split.
  { split; [|exact R1]. intros e' k Hi. apply NR. apply in_or_app. auto. }
  destruct F as [(k & fr & E & K & St)|(p & -> & M & Nr & Nf)].
  - left. exists k, fr, (frame_cell fr). destruct St as [M P].
    destruct (frame_alive s k fr I K) as (m & st & b & h & p & _ & C & _).
    repeat split; auto. eexists. exact C.
  - right. exists p. repeat split; auto. intros (g & Ig & Eg). exact (Nf g Ig Eg).
Qed.

(** The conditions on the program around under which nothing goes wrong: C++ does not destroy the
    peer of an object while code of the object is running, and does not itself call
    the method that takes ownership away. *)
Definition polite (s : state) (e : event) : Prop :=
  match e with
  | EDropUp p => ~ busy s p
  | ECppRemove _ | EReplace _ => False
  | _ => True
  end.

Definition polite_history (es : list event) : Prop :=
  forall es1 e es2 s, es = es1 ++ e :: es2 -> run init es1 = Some (Next s) -> polite s e.

(** Objects with running code have a peer. *)
Definition fresh (s : state) : Prop :=
  forall f, In f (frames s) -> ~ stale s (frame_cell f).

Lemma stale_iff s i :
  inv s -> (stale s i <-> mode_of s i CppOwned /\ occ (ups s) i = 0 /\ cnt (is_new i) (frames s) = 0).
Proof.
  intro I. unfold stale, mode_of. split.
  - intros [M P]. destruct (inv_index s i I (nth_len _ _ _ M)) as (m & c & q & M' & C & P' & Gd).
    rewrite M in M'. rewrite P in P'. injection M' as <-. injection P' as <-.
    destruct Gd as (_ & X & _). split; [exact M|lia].
  - intros (M & U & N). destruct (inv_index s i I (nth_len _ _ _ M)) as (m & c & q & M' & C & P & Gd).
    rewrite M in M'. injection M' as <-. split; [exact M|].
    destruct Gd as (_ & X & _). destruct q as [o|]; [|exact P]. destruct X as [_ X]. lia.
Qed.

Lemma fresh_step s e s' :
  inv s -> fresh s -> polite s e -> (forall k, e <> EReplace k) -> step s e = Some (Next s') -> fresh s'.
Proof.
  intros I Fr Po NR St f Hf Hs.
  pose proof (step_ok s e _ I NR St) as [I' _].
  destruct (step_eff s e s' I NR St) as (Ef & Eu & Em & _).
  apply (stale_iff s' _ I') in Hs as (M & U & N).
  unfold mode_of in M. rewrite Em in M. rewrite Eu in U. rewrite Ef in N, Hf.
  set (i := frame_cell f) in *.
  assert (Old : forall g, In g (frames s) -> frame_cell g = i -> nth_error (modes s) i = Some CppOwned ->
            occ (ups s) i = 0 -> cnt (is_new i) (frames s) = 0 -> False).
  { intros g Ig Eg M0 U0 N0. apply (Fr g Ig). rewrite Eg. apply stale_iff; unfold mode_of; auto. }
  destruct e; cbn [frames_after ups_after modes_after] in *.
  - rewrite cnt_cons in N. destruct Hf as [<-|Hf].
    + cbn [frame_cell] in i. subst i. cbn [is_new] in N. rewrite Nat.eqb_refl in N. lia.
    + assert (Li : i < List.length (modes s)) by (destruct I as (_ & _ & _ & F & _); exact (proj1 (F f Hf))).
      rewrite nth_error_app1 in M by exact Li.
      eapply Old; eauto. lia.
  - destruct (nth_error (frames s) k) as [g|] eqn:K.
    + rewrite (cnt_remove (is_new i) _ _ _ K) in *. 
      destruct g as [m j| |]; try (unfold step in St; rewrite K in St; discriminate).
      destruct (Nat.eq_dec i j) as [<-|Nj].
      * assert (m = CppOwned) as ->.
        { destruct I as (_ & _ & _ & F & _). destruct (F _ (nth_error_In _ _ K)) as [_ Mj].
          cbn in Mj. congruence. }
        rewrite occ_cons, Nat.eqb_refl in U. lia.
      * apply in_remove_nth in Hf. eapply Old; eauto.
        { destruct m; auto. rewrite occ_cons in U. destruct (Nat.eqb i j); lia. }
        cbn [is_new]. destruct (Nat.eqb_spec i j); [contradiction|]. exact N.
    + unfold step in St. rewrite K in St. discriminate.
  - eapply Old; eauto.
  - eapply Old; eauto.
  - assert (Np : i <> p).
    { intro Ep. cbn [polite] in Po. apply Po. exists f. split; [exact Hf|exact Ep]. }
    unfold step in St. destruct (existsb (Nat.eqb p) (ups s)) eqn:E; [|discriminate].
    pose proof (occ_remove1 (ups s) p i E) as Ei. destruct (Nat.eqb_spec i p); [contradiction|].
    eapply Old; eauto. lia.
  - destruct Hf as [<-|Hf].
    + cbn [frame_cell] in i. subst i. unfold step in St.
      destruct (existsb (Nat.eqb i0) (rcs s)) eqn:E; [|discriminate]. apply occ_in in E.
      destruct (inv_index s i0 I (nth_len _ _ _ M)) as (m & c & q & M' & C & P & Gd).
      rewrite M in M'. injection M' as <-. destruct Gd as (_ & _ & X & _). rewrite X in E by reflexivity. lia.
    + rewrite cnt_cons in N. eapply Old; eauto.
  - destruct Hf as [<-|Hf].
    + cbn [frame_cell] in i. subst i. rewrite cnt_cons in N. cbn [is_new plus] in N.
      assert (stale s p) as [_ P] by (apply stale_iff; auto; repeat split; auto).
      unfold step in St. rewrite P in St. discriminate.
    + rewrite cnt_cons in N. eapply Old; eauto.
  - destruct (nth_error (frames s) k) as [g|] eqn:K.
    + rewrite (cnt_remove (is_new i) _ _ _ K) in *. apply in_remove_nth in Hf.
      eapply Old; eauto. destruct g; cbn [is_new]; auto. unfold step in St. rewrite K in St. discriminate.
    + unfold step in St. rewrite K in St. discriminate.
  - eapply Old; eauto.
  - eapply Old; eauto.
  - eapply Old; eauto.
  - destruct Po.
  - destruct Po.
  - eapply Old; eauto.
Qed.

(** Such programs never use freed memory and never free twice. *)
Theorem c42_polite_is_safe_partial es r :
  polite_history es -> run init es = Some r -> forall f, r <> Fault f.
Proof.
  intros Po R f ->.
  assert (H : forall es1 es2 s, es = es1 ++ es2 -> run init es1 = Some (Next s) -> inv s -> fresh s ->
              run s es2 = Some (Fault f) -> False).
  { intros es1 es2; revert es1; induction es2 as [|e es2 IH]; intros es1 s Ees R1 I Fr R2; [discriminate|].
    cbn [run] in R2. assert (Pe := Po es1 e es2 s Ees R1).
    assert (NR : forall k, e <> EReplace k) by (intros k ->; exact Pe).
    destruct (step s e) as [[s1| |x]|] eqn:St; try discriminate.
    - apply (IH (es1 ++ [e]) s1); auto.
      + now rewrite <- app_assoc.
      + rewrite run_app, R1. cbn [run]. now rewrite St.
      + exact (proj1 (step_ok s e _ I NR St)).
      + exact (fresh_step s e s1 I Fr Pe NR St).
    - destruct (step_ok s e _ I NR St) as [_ [(k & g & E & K & S)|(p & -> & _)]]; [|exact Pe].
      exact (Fr g (nth_error_In _ _ K) S). }
  apply (H [] es init); auto; [exact inv_init|intros g []].
Qed.

(** ** C42: leaks and lifetimes *)

Lemma count_none s i :
  ~ busy s i -> cnt (is_up i) (frames s) = 0 /\ cnt (guard_of i) (frames s) = 0 /\ cnt (is_new i) (frames s) = 0.
Proof.
  intro N. repeat split; apply cnt_zero.
  all: match goal with |- existsb ?g _ = false => destruct (existsb g (frames s)) eqn:E; [|reflexivity] end.
  all: apply existsb_exists in E as (f & If & Ef); exfalso; apply N; exists f; split; [exact If|].
  all: destruct f; cbn in Ef |- *; try discriminate; apply Nat.eqb_eq in Ef; auto.
Qed.

Lemma occ_none (l : list nat) i : ~ In i l -> occ l i = 0.
Proof. apply count_occ_not_In. Qed.

(** A rust-owned object and its peer are destroyed as soon as there is no handle and
    none of its code runs. *)
Theorem c42_rust_owned_no_leak es s i :
  reaches es s -> mode_of s i RustOwned -> ~ In i (rcs s) -> ~ busy s i ->
  object_destroyed s i /\ peer_destroyed s i.
Proof.
  intros R M Nr Nb. pose proof (reaches_inv es s R) as I.
  destruct (inv_index s i I (nth_len _ _ _ M)) as (m & c & q & M' & C & P & Gd).
  unfold mode_of in M. rewrite M in M'. injection M' as <-.
  unfold good_at in Gd. destruct (count_none s i Nb) as (Z1 & Z2 & Z3). rewrite Z1, Z2, Z3, (occ_none _ _ Nr) in Gd.
  unfold object_destroyed, peer_destroyed. destruct Gd as (Gc & Gp & _).
  assert (Sw : strong_of q = 0).
  { destruct q as [o|]; [|reflexivity]. destruct Gp as [[[_ X]| ->] _]; [congruence|reflexivity]. }
  assert (c = None) as ->. { destruct c as [[st b h]|]; [|reflexivity]. lia. }
  split; [exact C|]. destruct q as [o|]; [destruct Gp as [_ X]; congruence|exact P].
Qed.

(** A C++-owned object and its peer are destroyed as soon as the owning pointer is
    gone and none of the object's code runs. *)
Theorem c42_cpp_owned_no_leak es s i :
  reaches es s -> mode_of s i CppOwned -> ~ In i (ups s) -> ~ busy s i ->
  object_destroyed s i /\ peer_destroyed s i.
Proof.
  intros R M Nr Nb. pose proof (reaches_inv es s R) as I.
  destruct (inv_index s i I (nth_len _ _ _ M)) as (m & c & q & M' & C & P & Gd).
  unfold mode_of in M. rewrite M in M'. injection M' as <-.
  unfold good_at in Gd. destruct (count_none s i Nb) as (Z1 & Z2 & Z3). rewrite Z1, Z2, Z3, (occ_none _ _ Nr) in Gd.
  unfold object_destroyed, peer_destroyed. destruct Gd as (Gc & Gp & Gr & _).
  rewrite (Gr eq_refl) in Gc.
  assert (q = PFreed) as ->. { destruct q as [o|]; [destruct Gp; lia|reflexivity]. }
  split; [|exact P]. destruct c as [[st b h]|]; [cbn in Gc; lia|exact C].
Qed.

(** Whoever holds a handle, a borrow or is in an upcall has a living object; a
    rust-owned or self-owned object has a living peer as long as it lives, and the
    owning pointer of a C++-owned object always points to a living peer. *)
Theorem c42_alive es s i :
  reaches es s ->
  (In i (rcs s) \/ busy s i -> object_alive s i) /\
  (object_alive s i -> ~ mode_of s i CppOwned -> peer_alive s i) /\
  (In i (ups s) -> peer_alive s i).
Proof.
  intro R. pose proof (reaches_inv es s R) as I. repeat split.
  - intros [Hr|(f & If & Ef)].
    + assert (Li : i < List.length (modes s)) by (apply I; auto).
      destruct (inv_index s i I Li) as (m & c & q & M & C & P & Gd).
      assert (0 < occ (rcs s) i) by (now apply count_occ_In).
      destruct (good_alive _ _ _ _ _ _ _ _ _ _ _ Gd) as (st & b & h & ->); [lia|]. eexists; exact C.
    + apply In_nth_error in If as [k K]. destruct (frame_alive s k f I K) as (m & st & b & h & p & _ & C & _).
      rewrite Ef in C. eexists; exact C.
  - intros [c0 C0] Nm. assert (Li : i < List.length (modes s)).
    { destruct I as (<- & _). exact (nth_len _ _ _ C0). }
    destruct (inv_index s i I Li) as (m & c & q & M & C & P & Gd). rewrite C0 in C. injection C as <-.
    destruct q as [o|]; [exists o; exact P|]. exfalso. destruct Gd as (_ & X & _).
    destruct m; [exact (Nm M)|discriminate X|discriminate X].
  - intro Hu. assert (Li : i < List.length (modes s)) by (apply I; auto).
    destruct (inv_index s i I Li) as (m & c & q & M & C & P & Gd).
    assert (0 < occ (ups s) i) by (now apply count_occ_In).
    destruct q as [o|]; [exists o; exact P|]. exfalso. destruct Gd as (_ & X & _ & Y & _).
    destruct m; [lia| |]; rewrite Y in H; (discriminate || lia).
Qed.

(** A self-owned object lives, handles or not, until it is told to delete itself. *)
Theorem c42_self_owned_lives es1 es2 s1 s2 i :
  reaches es1 s1 -> mode_of s1 i SelfOwned ->
  nth_error (peers s1) i = Some (PLive (Some (RStrong i))) ->
  no_replace es2 -> run s1 es2 = Some (Next s2) ->
  (forall a e b s, es2 = a ++ e :: b -> run s1 a = Some (Next s) ->
     e <> ECppRemove i /\
     forall k f, e = EDelete k -> nth_error (frames s) k = Some f -> frame_cell f <> i) ->
  object_alive s2 i /\ peer_alive s2 i.
Proof.
  intros R M P NR R2 H. apply reaches_inv in R.
  assert (W : forall es s, inv s -> no_replace es -> nth_error (modes s) i = Some SelfOwned ->
    nth_error (peers s) i = Some (PLive (Some (RStrong i))) -> run s es = Some (Next s2) ->
    (forall a e b s', es = a ++ e :: b -> run s a = Some (Next s') ->
     e <> ECppRemove i /\ forall k f, e = EDelete k -> nth_error (frames s') k = Some f -> frame_cell f <> i) ->
    inv s2 /\ nth_error (peers s2) i = Some (PLive (Some (RStrong i)))).
  { clear. intro es; induction es as [|e es IH]; intros s I NR M P R H; cbn [run] in R.
    - injection R as <-. auto.
    - destruct (step s e) as [[s'| |]|] eqn:St; try discriminate.
      assert (NRe : forall k, e <> EReplace k) by (intro k; exact (NR e k (or_introl eq_refl))).
      destruct (step_ok s e _ I NRe St) as [I' K].
      destruct (step_eff s e s' I NRe St) as (_ & _ & Em & _).
      destruct (H [] e es s eq_refl eq_refl) as [H1 H2].
      apply (IH s'); auto.
      + intros e' k Hi. exact (NR e' k (or_intror Hi)).
      + rewrite Em. destruct e; cbn [modes_after]; auto. now rewrite nth_error_app1 by exact (nth_len _ _ _ M).
      + apply K; auto. intros [(k & f & -> & Kf & Ef)| ->]; [exact (H2 k f eq_refl Kf Ef)|congruence].
      + intros a e' b s'' -> R'. apply (H (e :: a) e' b s''); [reflexivity|]. cbn [run]. now rewrite St. }
  destruct (W es2 s1 R NR M P R2 H) as [I2 P2]. split; [|eexists; exact P2].
  assert (Li : i < List.length (modes s2)) by (destruct I2 as (_ & <- & _); exact (nth_len _ _ _ P2)).
  destruct (inv_index s2 i I2 Li) as (m & c & q & M2 & C & P' & Gd). rewrite P2 in P'. injection P' as <-.
  destruct c as [c|]; [eexists; exact C|]. destruct Gd as ((X & _) & _). cbn in X. lia.
Qed.

(** Once it has deleted itself it goes as soon as nothing refers to it: deleting
    never frees the running object, and never leaks it. *)
Theorem c42_self_owned_deleted es1 es2 s1 s2 k f i :
  reaches es1 s1 -> nth_error (frames s1) k = Some f -> frame_cell f = i ->
  step s1 (EDelete k) = Some (Next s2) ->
  object_alive s2 i /\
  forall s3, no_replace es2 -> run s2 es2 = Some (Next s3) -> mode_of s3 i SelfOwned ->
  ~ In i (rcs s3) -> ~ busy s3 i -> object_destroyed s3 i /\ peer_destroyed s3 i.
Proof.
  intros R K <- St. set (i := frame_cell f). apply reaches_inv in R.
  assert (NRk : forall k0, EDelete k <> EReplace k0) by discriminate.
  destruct (step_ok s1 _ _ R NRk St) as [I2 _].
  destruct (step_eff s1 _ s2 R NRk St) as (Ef & _).
  assert (Wk : weak s2 i).
  { cbn [step] in St. rewrite K in St. apply some_eq in St. pose proof (ok_delete s1 k f R K) as D.
    rewrite St in D. right. apply D. }
  split.
  { assert (K2 : nth_error (frames s2) k = Some f) by (rewrite Ef; exact K).
    destruct (frame_alive s2 k f I2 K2) as (m & st & b & h & p & _ & C & _). eexists; exact C. }
  intros s3 NR R3 M Nr Nb.
  assert (W : forall es s, inv s -> no_replace es -> weak s i -> run s es = Some (Next s3) -> inv s3 /\ weak s3 i).
  { clear. intro es; induction es as [|e es IH]; intros s I NR W R; cbn [run] in R.
    - injection R as <-. auto.
    - destruct (step s e) as [[s'| |]|] eqn:St; try discriminate.
      assert (NRe : forall k, e <> EReplace k) by (intro k'; exact (NR e k' (or_introl eq_refl))).
      destruct (step_ok s e _ I NRe St) as [I' _].
      destruct (step_eff s e s' I NRe St) as (_ & _ & _ & Wp).
      apply (IH s'); auto. intros e' k' Hi. exact (NR e' k' (or_intror Hi)). }
  destruct (W es2 s2 I2 NR Wk R3) as [I3 W3].
  destruct (inv_index s3 i I3 (nth_len _ _ _ M)) as (m & c & q & M' & C & P & Gd).
  unfold mode_of in M. rewrite M in M'. injection M' as <-.
  unfold good_at in Gd. destruct (count_none s3 i Nb) as (Z1 & Z2 & Z3). rewrite Z1, Z2, Z3, (occ_none _ _ Nr) in Gd.
  unfold object_destroyed, peer_destroyed. destruct Gd as (Gc & Gp & _).
  assert (Sw : strong_of q = 0).
  { destruct W3 as [E|E]; rewrite E in P; injection P as <-; reflexivity. }
  assert (c = None) as ->. { destruct c as [[st b h]|]; [|reflexivity]. lia. }
  split; [exact C|]. destruct q as [o|]; [destruct Gp as [_ X]; congruence|exact P].
Qed.

(** ** C42: the histories which do misuse memory *)

(** C++ destroys the peer of a C++-owned object during an upcall of that object, and
    the object then uses its peer. *)
Theorem c42_destroyed_in_upcall_refuted :
  exists es, no_replace es /\ (forall p, ~ In (ECppRemove p) es) /\ run init es = Some (Fault UseAfterFree).
Proof.
  exists [ENewBegin CppOwned; ENewEnd 0; EUpcall 0 Exclusive; EDropUp 0; EUse 0].
  split; [|split; [|reflexivity]].
  - intros e k H. cbn in H. intuition (subst; discriminate).
  - intros p H. cbn in H. intuition discriminate.
Qed.

(** C++ calls the public method [cpp_remove_ownership] of the class of a self-owned
    object which no Rust code refers to: the peer is destroyed inside its own method. *)
Theorem c42_cpp_removes_ownership_refuted :
  exists es, no_replace es /\ (forall p, ~ In (EDropUp p) es) /\ run init es = Some (Fault UseAfterFree).
Proof.
  exists [ENewBegin SelfOwned; ENewEnd 0; EDropRc 0; ECppRemove 0].
  split; [|split; [|reflexivity]].
  - intros e k H. cbn in H. intuition (subst; discriminate).
  - intros p H. cbn in H. intuition discriminate.
Qed.

(** The Rust object of a C++-owned subclass is moved out with [mem::take] in a
    method with [&mut self], kept, and used after its peer is destroyed: all this is
    safe Rust. *)
Theorem c42_moved_out_refuted :
  exists es, (forall p, ~ In (ECppRemove p) es) /\
    (forall es1 p es2 s, es = es1 ++ EDropUp p :: es2 -> run init es1 = Some (Next s) -> ~ busy s p) /\
    run init es = Some (Fault UseAfterFree).
Proof.
  exists [ENewBegin CppOwned; ENewEnd 0; EUpcall 0 Exclusive; EReplace 0; EEnd 0; EDropUp 0; EUseVal 0].
  split; [|split; [|reflexivity]].
  - intros p H. cbn in H. intuition discriminate.
  - intros es1 p es2 s E R (f & If & Ef).
    do 5 (destruct es1 as [|? es1]; [discriminate E|injection E as <- E]).
    destruct es1 as [|? es1].
    + vm_compute in R. injection R as <-. exact If.
    + injection E as <- E. destruct es1 as [|? [|? ?]]; discriminate E.
Qed.

(** ** C43 *)

Lemma remove_nth_other {A} (l : list A) k1 k2 x :
  k1 <> k2 -> nth_error l k2 = Some x -> In x (remove_nth k1 l).
Proof.
  revert k1 k2; induction l as [|y l IH]; intros [|k1] [|k2] N H; try discriminate; try congruence; cbn in *.
  - exact (nth_error_In _ _ H).
  - injection H as ->. now left.
  - right. apply (IH k1 k2); auto.
Qed.

(** Two pieces of running code never have access to the same object at the same time
    unless both have only shared access. *)
Theorem c43_never_aliased es s k1 k2 f1 f2 :
  reaches es s -> k1 <> k2 ->
  nth_error (frames s) k1 = Some f1 -> nth_error (frames s) k2 = Some f2 ->
  frame_cell f1 = frame_cell f2 ->
  frame_access f1 = Shared /\ frame_access f2 = Shared.
Proof.
  intros R N K1 K2 E. apply reaches_inv in R.
  assert (H : forall k1 k2 f1 f2, k1 <> k2 -> nth_error (frames s) k1 = Some f1 -> nth_error (frames s) k2 = Some f2 ->
    frame_cell f1 = frame_cell f2 -> frame_access f1 = Shared).
  { clear - R. intros k1 k2 f1 f2 N K1 K2 E.
    destruct (frame_alive s k1 f1 R K1) as (m & st & b & h & p & _ & _ & _ & Gd & _).
    destruct Gd as ((_ & _ & Fl & _) & _). set (i := frame_cell f1) in *.
    pose proof (cnt_remove (is_sh i) _ _ _ K1) as S1. pose proof (cnt_remove (is_ex i) _ _ _ K1) as X1.
    destruct (sh_frame i f1 eq_refl) as [A1 A2]. rewrite A1 in S1. rewrite A2 in X1.
    destruct (sh_frame i f2 (eq_sym E)) as [B1 B2].
    pose proof (remove_nth_other (frames s) k1 k2 f2 N K2) as I2.
    destruct (frame_access f1) eqn:Ea; [reflexivity|]. exfalso. cbn [sh ex] in *.
    destruct (frame_access f2) eqn:Eb; cbn [sh ex] in *.
    - assert (0 < cnt (is_sh i) (remove_nth k1 (frames s)))
        by (apply (cnt_pos _ _ f2 I2); destruct (is_sh i f2); [reflexivity|discriminate]).
      destruct b; cbn in Fl; lia.
    - assert (0 < cnt (is_ex i) (remove_nth k1 (frames s)))
        by (apply (cnt_pos _ _ f2 I2); destruct (is_ex i f2); [reflexivity|discriminate]).
      destruct b; cbn in Fl; lia. }
  split; [apply (H k1 k2 f1 f2)|apply (H k2 k1 f2 f1)]; auto.
Qed.

(** A virtual call into a Rust subclass panics exactly when its object is gone or
    when running code has access that conflicts with the one the method needs;
    otherwise the method runs, with its access recorded. *)
Theorem c43_upcall_outcome es s p a :
  reaches es s -> peer_alive s p ->
  let conflict := exists f, In f (frames s) /\ frame_cell f = p /\ (a = Exclusive \/ frame_access f = Exclusive) in
  (step s (EUpcall p a) = Some Panics <-> object_destroyed s p \/ conflict) /\
  (~ object_destroyed s p -> ~ conflict ->
   exists s', step s (EUpcall p a) = Some (Next s') /\ frames s' = FUpcall p p a :: frames s).
Proof.
  intros R [o P] conflict. pose proof (reaches_inv es s R) as I.
  assert (Li : p < List.length (modes s)) by (destruct I as (_ & <- & _); exact (nth_len _ _ _ P)).
  destruct (inv_index s p I Li) as (m & c & q & M & C & P' & Gd). rewrite P in P'. injection P' as <-.
  assert (Hc : forall st b h, c = Some (Cell st b h) -> (conflict <-> try_borrow a b = None)).
  { intros st b h ->. destruct Gd as ((_ & _ & Fl & _) & _). unfold conflict. split.
    - intros (f & If & Ef & Ac).
      destruct (sh_frame p f Ef) as [A1 A2].
      assert (Hs : frame_access f = Shared -> 0 < cnt (is_sh p) (frames s)).
      { intro Es. apply (cnt_pos _ _ f If). rewrite Es in A1. destruct (is_sh p f); [reflexivity|discriminate]. }
      assert (Hx : frame_access f = Exclusive -> 0 < cnt (is_ex p) (frames s)).
      { intro Es. apply (cnt_pos _ _ f If). rewrite Es in A2. destruct (is_ex p f); [reflexivity|discriminate]. }
      destruct a, b; cbn in Fl |- *; try reflexivity.
      + destruct Ac as [Ac|Ac]; [discriminate|]. specialize (Hx Ac). lia.
      + destruct Ac as [Ac|Ac]; [discriminate|]. specialize (Hx Ac). lia.
      + destruct (frame_access f); [specialize (Hs eq_refl)|specialize (Hx eq_refl)]; lia.
    - intro T.
      assert (Ex : 0 < cnt (is_ex p) (frames s) -> exists f, In f (frames s) /\ frame_cell f = p /\ frame_access f = Exclusive).
      { intro L. destruct (existsb (is_ex p) (frames s)) eqn:Ee; [|apply cnt_zero in Ee; lia].
        apply existsb_exists in Ee as (f & If & Ef). unfold is_ex in Ef. apply andb_true_iff in Ef as [E1 E2].
        apply Nat.eqb_eq in E1. exists f. repeat split; auto. destruct (frame_access f); [discriminate|reflexivity]. }
      assert (Es : 0 < cnt (is_sh p) (frames s) -> exists f, In f (frames s) /\ frame_cell f = p).
      { intro L. destruct (existsb (is_sh p) (frames s)) eqn:Ee; [|apply cnt_zero in Ee; lia].
        apply existsb_exists in Ee as (f & If & Ef). unfold is_sh in Ef. apply andb_true_iff in Ef as [E1 E2].
        apply Nat.eqb_eq in E1. exists f. auto. }
      destruct a, b; cbn in Fl, T; try discriminate.
      + destruct Ex as (f & ? & ? & ?); [lia|]. exists f. auto.
      + destruct Es as (f & ? & ?); [lia|]. exists f. auto.
      + destruct Ex as (f & ? & ? & ?); [lia|]. exists f. auto. }
  unfold step. rewrite P. unfold upcall, the_peer. rewrite P. cbn [bind].
  assert (W : forall st b h, c = Some (Cell st b h) ->
    bind (bind (clone_rc p s) (fun s => Next (Some (p, s)))) (fun r => match r with
      | None => Panics
      | Some (i, s) => bind (borrow_cell i a s) (fun b => match b with
          | None => Panics | Some s => Next (set_frames (FUpcall p i a :: frames s) s) end)
      end) =
    match try_borrow a b with
    | None => Panics
    | Some b' => Next (set_frames (FUpcall p p a :: frames s) (set_cell p (Some (Cell (S st) b' h))
                         (set_cell p (Some (Cell (S st) b h)) s)))
    end).
  { intros st b h ->. unfold clone_rc, the_cell. rewrite C. cbn [bind c_strong c_flag c_obj].
    unfold borrow_cell, the_cell. st. rewrite upd_same by (destruct I as (L1 & _); lia).
    cbn [bind c_strong c_flag c_obj]. destruct (try_borrow a b); reflexivity. }
  assert (Hl : exists st b h, c = Some (Cell st b h) \/ c = None)
    by (destruct c as [[st b h]|]; [exists st, b, h; auto|exists 0, BNone, HEmpty; auto]).
  assert (Hs : o = Some (RStrong p) -> c <> None).
  { intros -> ->. destruct Gd as ((X & _) & _). cbn in X. lia. }
  destruct c as [[st b h]|].
  - specialize (W st b h eq_refl). specialize (Hc st b h eq_refl).
    assert (Hg : match o with None => Fault UseAfterFree | Some h => bind (holder_get h s) (fun r => match r with
      | None => Panics
      | Some (i, s) => bind (borrow_cell i a s) (fun b => match b with
          | None => Panics | Some s => Next (set_frames (FUpcall p i a :: frames s) s) end)
      end) end = match try_borrow a b with
        | None => Panics
        | Some b' => Next (set_frames (FUpcall p p a :: frames s) (set_cell p (Some (Cell (S st) b' h))
                         (set_cell p (Some (Cell (S st) b h)) s)))
        end).
    { destruct (live_obs s p o I P) as [-> | ->]; cbn [holder_get]; [exact W|]. rewrite C. exact W. }
    rewrite Hg. destruct (try_borrow a b) as [b'|] eqn:T.
    + split.
      * split; [discriminate|]. intros [D|D]; [unfold object_destroyed in D; congruence|].
        apply Hc in D. discriminate.
      * intros _ _. eexists. split; [reflexivity|]. reflexivity.
    + split; [split; auto; intros _; right; now apply Hc|]. intros _ Nc. exfalso. apply Nc. now apply Hc.
  - destruct (live_obs s p o I P) as [-> | ->]; [exfalso; apply (Hs eq_refl); reflexivity|].
    cbn [holder_get]. rewrite C. cbn [bind]. split.
    + split; auto.
    + intros Nd. exfalso. apply Nd. exact C.
Qed.

(** ** A case *)

(** A self-owned and a C++-owned object: an upcall with a nested shared borrow, a
    rejected re-entrant upcall, deletion from within an upcall. *)
Definition case_history : list event :=
  [ENewBegin SelfOwned; ENewEnd 0; ENewBegin CppOwned; ENewEnd 0;
   EGuard 0 Shared; EUpcall 0 Shared; EUse 0; EEnd 0; EEnd 0; EDropRc 0;
   EUpcall 1 Exclusive; EUpcall 0 Exclusive; EDelete 0].

Example subclass_rt_case : exists s,
  reaches case_history s /\ mode_of s 0 SelfOwned /\ busy s 0 /\ ~ In 0 (rcs s) /\
  step s (EUpcall 1 Shared) = Some Panics /\
  polite_history (case_history ++ [EEnd 0; EEnd 0; EDropUp 1]) /\
  match run s [EEnd 0; EEnd 0; EDropUp 1] with
  | Some (Next s') => cells s' = [None; None] /\ peers s' = [PFreed; PFreed]
  | _ => False
  end.
Proof.
  eexists. split; [split; [|vm_compute; reflexivity]|].
  - intros e k H. cbn in H. intuition (subst; discriminate).
  - split; [reflexivity|]. split; [eexists; split; [left; reflexivity|reflexivity]|].
    split; [cbn; tauto|]. split; [reflexivity|]. split; [|vm_compute; auto].
    intros es1 e es2 s E R.
    do 15 (destruct es1 as [|? es1]; [injection E as <- _; exact Logic.I|injection E as <- E]).
    destruct es1 as [|? es1]; [|destruct es1; discriminate E].
    injection E as <- <-. vm_compute in R. injection R as <-. intros (f & [] & _).
Qed.

Print Assumptions c42_faults_classified.
Print Assumptions c42_polite_is_safe_partial.
Print Assumptions c42_rust_owned_no_leak.
Print Assumptions c42_cpp_owned_no_leak.
Print Assumptions c42_alive.
Print Assumptions c42_self_owned_lives.
Print Assumptions c42_self_owned_deleted.
Print Assumptions c42_destroyed_in_upcall_refuted.
Print Assumptions c42_cpp_removes_ownership_refuted.
Print Assumptions c42_moved_out_refuted.
Print Assumptions c43_never_aliased.
Print Assumptions c43_upcall_outcome.
