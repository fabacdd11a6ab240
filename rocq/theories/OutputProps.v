(** What the writers leave on disk: conflicts (C32), unchanged rebuilds (C36),
    fixed numbers of files (C33), dependency files (C34), file names (C40). *)
From Verif Require Import Base OutputModel.

(** ** Notions *)

(** The writes which are asked for before the tool stops. *)
Fixpoint writes (l : list step) : list (string * string) :=
  match l with
  | SWrite n c :: l' => (n, c) :: writes l'
  | _ => []
  end.
(** The contents asked for under one name, in order. *)
Definition contents (n : string) (l : list (string * string)) : list string :=
  map snd (filter (fun w => String.eqb (fst w) n) l).
(** What the disk holds. *)
Definition held (d : fs) (p : string) : option string :=
  match sget p (fs_files d) with Some f => Some (fl_content f) | None => None end.

(** All contents of each name are the same. *)
Definition consistent (l : list (string * string)) : Prop :=
  forall n c c', In (n, c) l -> In (n, c') l -> c = c'.

(** First only what was there already, then only one new content. *)
Definition one_change (old : option string) (cs : list string) : Prop :=
  exists before after, cs = (before ++ after)%list
    /\ (forall x, In x before -> old = Some x)
    /\ (forall x y, In x after -> In y after -> x = y).

Lemma contents_In n c l : In c (contents n l) <-> In (n, c) l.
Proof.
  unfold contents. rewrite in_map_iff. split.
  - intros ([m x] & <- & H). apply filter_In in H as [H E]. cbn in *. apply String.eqb_eq in E. subst. exact H.
  - intros H. exists (n, c). split; [reflexivity|]. apply filter_In. cbn. rewrite String.eqb_refl. auto.
Qed.

Lemma pjoin_inj d n m : pjoin d n = pjoin d m -> n = m.
Proof. unfold pjoin. intros H. apply sapp_inj_l in H. injection H as H. exact H. Qed.

Lemma held_put_same p c d : held (put p c d) p = Some c.
Proof. unfold held, put. cbn [fs_files]. rewrite sget_sset_same. reflexivity. Qed.
Lemma held_put_other p q c d : q <> p -> held (put p c d) q = held d q.
Proof. intros H. unfold held, put. cbn [fs_files]. rewrite sget_sset_other by exact H. reflexivity. Qed.

(** ** The tool's writer *)

Section Tool.
Variable io : string -> io_result.
Variable relativize : string -> option string.
Variable outdir : string.
Notation readable := (fun _ : string => true).
Notation write := (write_to_file readable io relativize outdir).
Notation run := (run_steps readable io relativize outdir).
Notation at_ n := (pjoin outdir n).

(** What one write does. *)
Lemma write_spec n c w w' e : write n c w = (w', e) ->
  (e = None /\ held (w_fs w) (at_ n) = Some c /\ w_fs w' = w_fs w /\ w_written w' = w_written w)
  \/ (e = None /\ held (w_fs w) (at_ n) <> Some c /\ ~ In n (w_written w) /\ w_fs w' = put (at_ n) c (w_fs w)
      /\ w_written w' = (w_written w ++ [n])%list)
  \/ (e = Some (ETwoFiles n) /\ held (w_fs w) (at_ n) <> Some c /\ In n (w_written w) /\ w_fs w' = put (at_ n) c (w_fs w)
      /\ w_written w' = w_written w)
  \/ (e = Some EPanic /\ w_fs w' = w_fs w /\ exists f, w_dep w = Some f /\ relativize (at_ n) = None)
  \/ (e = Some (EIo (at_ n)) /\ io (at_ n) <> IoOk /\ held (w_fs w) (at_ n) <> Some c).
Proof.
  unfold write_to_file. intros H.
  destruct (match w_dep w with None => _ | Some f => _ end) as [dep|] eqn:D.
  2: { injection H as <- <-. right; right; right; left. split; [reflexivity|]. split; [reflexivity|].
       destruct (w_dep w) as [f|]; [|discriminate D]. unfold add_output in D. destruct (relativize (at_ n)) eqn:R; [discriminate D|]. eauto. }
  cbv beta zeta in H. unfold read_file in H. cbn [w_fs w_written] in H. cbv beta iota in H.
  assert (G : held (w_fs w) (at_ n) <> Some c ->
    match create_and_write io (at_ n) c (w_fs w) with
    | (d, Some e) => (Writer d (w_written w) dep, Some e)
    | (d, None) => if smem n (w_written w) then (Writer d (w_written w) dep, Some (ETwoFiles n)) else (Writer d (w_written w ++ [n]) dep, None)
    end = (w', e) -> 
    (e = None /\ ~ In n (w_written w) /\ w_fs w' = put (at_ n) c (w_fs w) /\ w_written w' = (w_written w ++ [n])%list)
    \/ (e = Some (ETwoFiles n) /\ In n (w_written w) /\ w_fs w' = put (at_ n) c (w_fs w) /\ w_written w' = w_written w)
    \/ (e = Some (EIo (at_ n)) /\ io (at_ n) <> IoOk)).
  { intros _ X. unfold create_and_write in X. destruct (io (at_ n)) eqn:I.
    - destruct (smem n (w_written w)) eqn:M; injection X as <- <-.
      + apply smem_In in M. right; left. auto.
      + apply smem_nIn in M. left. auto.
    - injection X as <- <-. right; right. split; [reflexivity|discriminate].
    - injection X as <- <-. right; right. split; [reflexivity|discriminate]. }
  unfold held in *. destruct (sget (at_ n) (fs_files (w_fs w))) as [f|].
  - destruct (String.eqb_spec (fl_content f) c) as [E|E].
    + injection H as <- <-. left. rewrite E. auto.
    + assert (N : Some (fl_content f) <> Some c) by congruence.
      destruct (G N H) as [(A & B & C & D')|[(A & B & C & D')|(A & B)]]; intuition.
  - assert (N : @None string <> Some c) by discriminate.
    destruct (G N H) as [(A & B & C & D')|[(A & B & C & D')|(A & B)]]; intuition.
Qed.

Definition no_panic (w : writer) : Prop := w_dep w = None \/ forall p, relativize p <> None.

Lemma write_dep n c w w' e : write n c w = (w', e) -> w_dep w = None -> w_dep w' = None.
Proof.
  unfold write_to_file. intros H D. rewrite D in H. cbv beta iota zeta in H. unfold read_file, create_and_write in H. cbn [w_fs w_written] in H.
  destruct (sget (at_ n) (fs_files (w_fs w))) as [f|]; [destruct (String.eqb (fl_content f) c)|]; cbv beta iota in H;
    repeat match type of H with context [match ?x with _ => _ end] => destruct x end; injection H as <- <-; reflexivity.
Qed.
Lemma write_no_panic n c w w' e : write n c w = (w', e) -> no_panic w -> no_panic w'.
Proof. intros H [D|D]; [left; eapply write_dep; eassumption|right; exact D]. Qed.

(** What decides whether the writes still to come succeed. *)
Definition fine (w : writer) (l : list (string * string)) : Prop :=
  forall n, if smem n (w_written w) then forall x, In x (contents n l) -> held (w_fs w) (at_ n) = Some x
            else one_change (held (w_fs w) (at_ n)) (contents n l).

Lemma one_change_skip c cs : one_change (Some c) (c :: cs) <-> one_change (Some c) cs.
Proof.
  split; intros (b & a & E & B & A).
  - destruct b as [|x b]; cbn in E.
    + destruct a as [|y a]; [discriminate E|]. injection E as <- E. exists [], cs. split; [reflexivity|]. split; [intros x []|].
      subst cs. intros x y I J. apply A; right; assumption.
    + injection E as <- E. exists b, a. split; [exact E|]. split; [intros x I; apply B; right; exact I|exact A].
  - exists (c :: b), a. rewrite E. split; [reflexivity|]. split; [|exact A]. intros x [<-|I]; [reflexivity|auto].
Qed.
Lemma one_change_new old c cs : old <> Some c -> one_change old (c :: cs) <-> forall x, In x cs -> Some c = Some x.
Proof.
  intros N. split.
  - intros (b & a & E & B & A) x I. destruct b as [|y b]; cbn in E.
    + subst a. f_equal. apply A; [left; reflexivity|right; exact I].
    + injection E as <- E. destruct (N (B c (or_introl eq_refl))).
  - intros H. exists [], (c :: cs). split; [reflexivity|]. split; [intros x []|].
    assert (G : forall x, In x (c :: cs) -> x = c) by (intros x [<-|I]; [reflexivity|specialize (H x I); congruence]).
    intros x y I J. rewrite (G x I), (G y J). reflexivity.
Qed.

Lemma contents_cons n m c l : contents n ((m, c) :: l) = if String.eqb m n then c :: contents n l else contents n l.
Proof. unfold contents. cbn. destruct (String.eqb m n); reflexivity. Qed.

Definition all_writes (l : list (string * string)) : list step := map (fun w => SWrite (fst w) (snd w)) l.

Lemma run_ok_iff l : (forall p, io p = IoOk) -> forall w, no_panic w -> snd (run (all_writes l) w) = None <-> fine w l.
Proof.
  intros IO. induction l as [|[n c] l IH]; intros w NP.
  - cbn. split; [|reflexivity]. intros _ n. destruct (smem n (w_written w)); [intros x []|].
    exists [], []. split; [reflexivity|]. split; [intros x []|intros x y []].
  - cbn [all_writes map run_steps fst snd]. destruct (write n c w) as [w' e] eqn:W.
    assert (NP' := write_no_panic _ _ _ _ _ W NP).
    apply write_spec in W as [(-> & H & F & R)|[(-> & H & NI & F & R)|[(-> & H & I & F & R)|[(_ & _ & f & D & RL)|(_ & X & _)]]]].
    + fold (all_writes l). rewrite (IH w' NP'). unfold fine. rewrite F, R. split; intros G m; specialize (G m); rewrite contents_cons in *.
      * destruct (String.eqb_spec n m) as [->|_]; [|exact G]. destruct (smem m (w_written w)).
        -- intros x [<-|J]; auto.
        -- rewrite H in *. apply one_change_skip. exact G.
      * destruct (String.eqb_spec n m) as [->|_]; [|exact G]. destruct (smem m (w_written w)).
        -- intros x J. apply G. right; exact J.
        -- rewrite H in *. apply one_change_skip. exact G.
    + fold (all_writes l). rewrite (IH w' NP'). unfold fine. rewrite F, R.
      assert (E : forall m, smem m (w_written w ++ [n]) = if String.eqb n m then true else smem m (w_written w)).
      { intros m. destruct (String.eqb_spec n m) as [->|N].
        - apply smem_In, in_or_app. right; left; reflexivity.
        - destruct (smem m (w_written w)) eqn:S.
          + apply smem_In in S. apply smem_In, in_or_app. auto.
          + apply smem_nIn in S. apply smem_nIn. rewrite in_app_iff. intros [J|[J|[]]]; auto. }
      apply smem_nIn in NI.
      split; intros G m; specialize (G m); rewrite contents_cons, E in *; destruct (String.eqb_spec n m) as [->|N].
      * rewrite NI. rewrite held_put_same in G. apply one_change_new; [exact H|]. exact G.
      * rewrite held_put_other in G by (intros X; apply pjoin_inj in X; congruence). exact G.
      * rewrite NI in G. rewrite held_put_same. exact (proj1 (one_change_new _ _ _ H) G).
      * rewrite held_put_other by (intros X; apply pjoin_inj in X; congruence). exact G.
    + split; [discriminate|]. intros G. exfalso. specialize (G n). apply smem_In in I. rewrite I in G. apply H, G.
      rewrite contents_cons, String.eqb_refl. left; reflexivity.
    + exfalso. destruct NP as [X|X]; [congruence|exact (X _ RL)].
    + exfalso. exact (X (IO _)).
Qed.

(** After success the disk holds the last content of each name; other files are untouched. *)
Lemma run_disk l : forall w w', run (all_writes l) w = (w', None) ->
  (forall n c, In (n, c) l -> exists cs, contents n l = (cs ++ [match held (w_fs w') (at_ n) with Some x => x | None => "" end])%list
                                      /\ held (w_fs w') (at_ n) <> None)
  /\ (forall p, (forall n c, In (n, c) l -> p <> at_ n) -> sget p (fs_files (w_fs w')) = sget p (fs_files (w_fs w))).
Proof.
  induction l as [|[n c] l IH]; intros w w' R.
  - injection R as <-. split; [intros n c []|reflexivity].
  - cbn [all_writes map run_steps fst snd] in R. fold (all_writes l) in R.
    destruct (write n c w) as [w1 e] eqn:W. destruct e; [discriminate R|].
    destruct (IH _ _ R) as [A B].
    assert (H1 : held (w_fs w1) (at_ n) = Some c).
    { apply write_spec in W as [(_ & H & F & _)|[(_ & _ & _ & F & _)|[(X & _)|[(X & _)|(X & _)]]]]; try discriminate X; rewrite F;
        [exact H|apply held_put_same]. }
    assert (O1 : forall p, p <> at_ n -> sget p (fs_files (w_fs w1)) = sget p (fs_files (w_fs w))).
    { intros p N. apply write_spec in W as [(_ & H & F & _)|[(_ & _ & _ & F & _)|[(X & _)|[(X & _)|(X & _)]]]]; try discriminate X; rewrite F;
        [reflexivity|]. unfold put; cbn [fs_files]. apply sget_sset_other, N. }
    split.
    + intros m c' I. rewrite contents_cons. destruct (contents m l) as [|x xs] eqn:C.
      * assert (NI : forall y, ~ In (m, y) l) by (intros y J; apply contents_In in J; rewrite C in J; exact J).
        destruct I as [I|I]; [|destruct (NI _ I)]. injection I as -> ->. rewrite String.eqb_refl. exists [].
        assert (E : held (w_fs w') (at_ m) = Some c').
        { unfold held in *. rewrite B; [exact H1|]. intros k y J X. apply pjoin_inj in X. subst k. exact (NI _ J). }
        rewrite E. split; [reflexivity|discriminate].
      * assert (I' : In (m, x) l) by (apply contents_In; rewrite C; left; reflexivity).
        destruct (A m x I') as (cs & E & NN). rewrite C in E. rewrite E.
        destruct (String.eqb n m); [exists (c :: cs)|exists cs]; split; auto.
    + intros p H. rewrite B by (intros k y J; apply (H k y); right; exact J). apply O1, (H n c). left; reflexivity.
Qed.

(** If everything asked for is there already, nothing happens. *)
Lemma run_unchanged l : forall w, no_panic w -> (forall n c, In (n, c) l -> held (w_fs w) (at_ n) = Some c) ->
  w_fs (fst (run (all_writes l) w)) = w_fs w /\ snd (run (all_writes l) w) = None.
Proof.
  induction l as [|[n c] l IH]; intros w NP H; [split; reflexivity|].
  cbn [all_writes map run_steps fst snd]. fold (all_writes l).
  destruct (write n c w) as [w1 e] eqn:W. assert (Hn := H n c (or_introl eq_refl)).
  assert (NP' := write_no_panic _ _ _ _ _ W NP).
  apply write_spec in W as [(-> & _ & F & _)|[(_ & X & _)|[(_ & X & _)|[(_ & _ & f & D & R)|(_ & _ & X)]]]]; try congruence.
  - destruct (IH w1 NP') as [A B]; [intros m x I; rewrite F; apply H; right; exact I|]. rewrite A, F. auto.
  - exfalso. destruct NP as [Y|Y]; [congruence|exact (Y _ R)].
Qed.
End Tool.

(** ** C32 *)

(** When all files can be written and read, a run succeeds if and only if the
    contents asked for under each name are first only what was on disk already,
    and from then on all the same. *)
Theorem c32_success_iff :
  forall io relativize outdir d dep l,
    (forall p, io p = IoOk) -> (dep = None \/ forall p, relativize p <> None) ->
    snd (run_steps (fun _ => true) io relativize outdir (all_writes l) (Writer d [] dep)) = None
    <-> forall n, one_change (held d (pjoin outdir n)) (contents n l).
Proof.
  intros io relativize outdir d dep l IO NP. rewrite (run_ok_iff io relativize outdir l IO); [|exact NP]. reflexivity.
Qed.
Print Assumptions c32_success_iff.

(** In a directory which does not have the files yet, two different contents
    for one name are always reported. Missing from the full claim: directories
    which have them. *)
Theorem c32_conflicts_reported_partial :
  forall io relativize outdir d dep l,
    (forall n c, In (n, c) l -> held d (pjoin outdir n) = None) ->
    snd (run_steps (fun _ => true) io relativize outdir (all_writes l) (Writer d [] dep)) = None -> consistent l.
Proof.
  intros io relativize outdir d dep l H R n c c' I J.
  (* io and relativize may fail; success means that they did not *)
  assert (G : forall l w, snd (run_steps (fun _ => true) io relativize outdir (all_writes l) w) = None -> fine outdir w l).
  { clear. induction l as [|[n c] l IH]; intros w R.
    - intros n. destruct (smem n (w_written w)); [intros x []|]. exists [], []. split; [reflexivity|]. split; [intros x []|intros x y []].
    - cbn [all_writes map run_steps fst snd] in R. fold (all_writes l) in R.
      destruct (write_to_file _ _ _ _ n c w) as [w' e] eqn:W. destruct e; [discriminate R|]. specialize (IH _ R).
      apply write_spec in W as [(_ & H & F & Rw)|[(_ & H & NI & F & Rw)|[(X & _)|[(X & _)|(X & _)]]]]; try discriminate X.
      + unfold fine in *. rewrite F, Rw in IH. intros m. specialize (IH m). rewrite contents_cons.
        destruct (String.eqb_spec n m) as [->|_]; [|exact IH]. destruct (smem m (w_written w)).
        * intros x [<-|J]; auto.
        * rewrite H in *. apply one_change_skip. exact IH.
      + unfold fine in *. rewrite F, Rw in IH. intros m. specialize (IH m). rewrite contents_cons.
        destruct (String.eqb_spec n m) as [->|N].
        * assert (S : smem m (w_written w ++ [m]) = true) by (apply smem_In, in_or_app; right; left; reflexivity).
          rewrite S in IH. apply smem_nIn in NI. rewrite NI. rewrite held_put_same in IH. apply one_change_new; [exact H|exact IH].
        * rewrite held_put_other in IH by (intros X; apply pjoin_inj in X; congruence).
          replace (smem m (w_written w ++ [n])) with (smem m (w_written w)) in IH; [exact IH|].
          destruct (smem m (w_written w)) eqn:S; symmetry.
          -- apply smem_In in S. apply smem_In, in_or_app. auto.
          -- apply smem_nIn in S. apply smem_nIn. rewrite in_app_iff. intros [J|[J|[]]]; auto. }
  specialize (G l _ R n). cbn in G. rewrite (H n c I) in G. destruct G as (b & a & E & B & A).
  destruct b as [|x b]; [|discriminate (B x (or_introl eq_refl))]. cbn in E.
  apply contents_In in I, J. rewrite E in I, J. apply A; assumption.
Qed.
Print Assumptions c32_conflicts_reported_partial.

(** The error names a file which was asked for with two different contents. *)
Theorem c32_error_is_a_conflict :
  forall io relativize outdir d dep l n,
    snd (run_steps (fun _ => true) io relativize outdir (all_writes l) (Writer d [] dep)) = Some (ETwoFiles n) ->
    exists c c', In (n, c) l /\ In (n, c') l /\ c <> c'.
Proof.
  intros io relativize outdir d dep l n.
  assert (G : forall l w, (forall m, In m (w_written w) -> held (w_fs w) (pjoin outdir m) <> None) ->
    snd (run_steps (fun _ => true) io relativize outdir (all_writes l) w) = Some (ETwoFiles n) ->
    (exists c c', In (n, c) l /\ In (n, c') l /\ c <> c')
    \/ (In n (w_written w) /\ exists c c', held (w_fs w) (pjoin outdir n) = Some c /\ In (n, c') l /\ c <> c')).
  { clear. induction l as [|[m c] l IH]; intros w Inv R; [discriminate R|].
    cbn [all_writes map run_steps fst snd] in R. fold (all_writes l) in R.
    destruct (write_to_file _ _ _ _ m c w) as [w' e] eqn:W.
    apply write_spec in W as [(-> & H & F & Rw)|[(-> & H & NI & F & Rw)|[(-> & H & I & F & Rw)|[(-> & _)|(-> & _)]]]]; try discriminate R.
    - destruct (IH w') as [(x & y & I & J & N)|(I & x & y & Hx & J & N)].
      + rewrite F, Rw. exact Inv.
      + exact R.
      + left. exists x, y. split; [right; exact I|]. split; [right; exact J|exact N].
      + right. rewrite F in Hx. rewrite Rw in I. split; [exact I|]. exists x, y. split; [exact Hx|]. split; [right; exact J|exact N].
    - destruct (IH w') as [(x & y & I & J & N)|(I & x & y & Hx & J & N)].
      + rewrite F, Rw. intros k K. destruct (string_dec k m) as [->|NE]; [rewrite held_put_same; discriminate|].
        rewrite held_put_other by (intros X; apply pjoin_inj in X; congruence).
        apply in_app_iff in K as [K|[K|[]]]; [apply Inv, K|congruence].
      + exact R.
      + left. exists x, y. split; [right; exact I|]. split; [right; exact J|exact N].
      + rewrite F in Hx. destruct (string_dec n m) as [->|NE].
        * rewrite held_put_same in Hx. injection Hx as <-. left. exists c, y. split; [left; reflexivity|]. split; [right; exact J|exact N].
        * rewrite held_put_other in Hx by (intros X; apply pjoin_inj in X; congruence). right.
          rewrite Rw in I. apply in_app_iff in I as [I|[I|[]]]; [|congruence]. split; [exact I|].
          exists x, y. split; [exact Hx|]. split; [right; exact J|exact N].
    - cbn in R. injection R as ->. right. split; [exact I|]. destruct (held (w_fs w) (pjoin outdir n)) as [x|] eqn:Hx; [|destruct (Inv n I Hx)].
      exists x, c. split; [reflexivity|]. split; [left; reflexivity|congruence]. }
  intros R. destruct (G l (Writer d [] dep)) as [X|(I & _)]; [intros m []|exact R|exact X|destruct I].
Qed.
Print Assumptions c32_error_is_a_conflict.

(** Identical contents are never reported. *)
Theorem c32_identical_accepted :
  forall io relativize outdir d dep l,
    (forall p, io p = IoOk) -> (dep = None \/ forall p, relativize p <> None) -> consistent l ->
    snd (run_steps (fun _ => true) io relativize outdir (all_writes l) (Writer d [] dep)) = None.
Proof.
  intros io relativize outdir d dep l IO NP C. apply c32_success_iff; try assumption. intros n.
  exists [], (contents n l). split; [reflexivity|]. split; [intros x []|]. intros x y I J.
  apply contents_In in I, J. exact (C n x y I J).
Qed.
Print Assumptions c32_identical_accepted.

(** C32 fails if the first content is on disk already: the write is skipped
    and not recorded, so that a second content silently replaces it. This
    happens when a second block with the same file name is added after a first
    successful run. *)
Theorem c32_stale_file_refuted :
  exists l d, ~ consistent l
    /\ (exists w, run_steps (fun _ => true) (fun _ => IoOk) (fun p => Some p) "out" [SWrite "autocxxgen_ffi.h" "A"] (Writer (FS [] 0) [] None) = (w, None) /\ w_fs w = d)
    /\ (exists w, run_steps (fun _ => true) (fun _ => IoOk) (fun p => Some p) "out" (all_writes l) (Writer d [] None) = (w, None)
          /\ held (w_fs w) "out/autocxxgen_ffi.h" = Some "B").
Proof.
  exists [("autocxxgen_ffi.h", "A"); ("autocxxgen_ffi.h", "B")]. eexists. split; [|split].
  - intros C. discriminate (C "autocxxgen_ffi.h" "A" "B" (or_introl eq_refl) (or_intror (or_introl eq_refl))).
  - eexists. split; [vm_compute; reflexivity|]. reflexivity.
  - eexists. split; [vm_compute; reflexivity|reflexivity].
Qed.
Print Assumptions c32_stale_file_refuted.

(** When the conflict is reported, the first content is already lost. *)
Theorem c32_first_content_lost_refuted :
  exists w, run_steps (fun _ => true) (fun _ => IoOk) (fun p => Some p) "out"
              [SWrite "f" "A"; SWrite "f" "B"] (Writer (FS [] 0) [] None) = (w, Some (ETwoFiles "f"))
    /\ held (w_fs w) "out/f" = Some "B".
Proof. eexists. split; vm_compute; reflexivity. Qed.
Print Assumptions c32_first_content_lost_refuted.

(** ** C36 *)

(** After a successful run of the tool every file holds the last content
    written to it, and no other file has changed. *)
Theorem c36_last_content :
  forall io relativize outdir d dep l w,
    run_steps (fun _ => true) io relativize outdir (all_writes l) (Writer d [] dep) = (w, None) ->
    (forall n c, In (n, c) l -> exists before x, contents n l = (before ++ [x])%list /\ held (w_fs w) (pjoin outdir n) = Some x)
    /\ (forall p, (forall n c, In (n, c) l -> p <> pjoin outdir n) -> sget p (fs_files (w_fs w)) = sget p (fs_files d)).
Proof.
  intros io relativize outdir d dep l w R. apply run_disk in R as [A B]. split; [|exact B].
  intros n c I. destruct (A n c I) as (cs & E & NN). destruct (held (w_fs w) (pjoin outdir n)) as [x|]; [|congruence]. eauto.
Qed.
Print Assumptions c36_last_content.

(** Repeating a successful run whose names do not conflict, or any part of it,
    changes nothing on disk, not even a modification time. *)
Theorem c36_rerun_touches_nothing :
  forall io io' relativize outdir d dep l l' w dep',
    run_steps (fun _ => true) io relativize outdir (all_writes l) (Writer d [] dep) = (w, None) ->
    consistent l -> incl l' l -> (dep' = None \/ forall p, relativize p <> None) ->
    exists w', run_steps (fun _ => true) io' relativize outdir (all_writes l') (Writer (w_fs w) [] dep') = (w', None) /\ w_fs w' = w_fs w.
Proof.
  intros io io' relativize outdir d dep l l' w dep' R C Sub NP. apply c36_last_content in R as [A _].
  destruct (run_unchanged io' relativize outdir l' (Writer (w_fs w) [] dep') NP) as [X Y].
  - intros n c I. apply Sub in I. destruct (A n c I) as (b & x & E & H). cbn [w_fs]. rewrite H. f_equal.
    apply (C n x c); [|exact I]. apply contents_In. rewrite E. apply in_or_app. right; left; reflexivity.
  - exists (fst (run_steps (fun _ => true) io' relativize outdir (all_writes l') (Writer (w_fs w) [] dep'))).
    split; [|exact X]. rewrite <- Y. apply surjective_pairing.
Qed.
Print Assumptions c36_rerun_touches_nothing.

(** A run may succeed and the same run, repeated, fail (from the gap of C32). *)
Theorem c36_rerun_fails_refuted :
  exists l d w, run_steps (fun _ => true) (fun _ => IoOk) (fun p => Some p) "out" (all_writes l) (Writer d [] None) = (w, None)
    /\ snd (run_steps (fun _ => true) (fun _ => IoOk) (fun p => Some p) "out" (all_writes l) (Writer (w_fs w) [] None)) = Some (ETwoFiles "f").
Proof.
  exists [("f", "A"); ("f", "B")], (FS [("out/f", File "A" 0)] 1). eexists. split; vm_compute; reflexivity.
Qed.
Print Assumptions c36_rerun_fails_refuted.

(** The same for the build script. *)
Definition built (l : list (string * string * string)) : list (string * string) :=
  map (fun w => (pjoin (fst (fst w)) (snd (fst w)), snd w)) l.

Lemma builder_spec io dir n c d d' : builder_write (fun _ => true) io dir n c d = (d', None) ->
  held d' (pjoin dir n) = Some c /\ (forall p, p <> pjoin dir n -> sget p (fs_files d') = sget p (fs_files d))
  /\ (held d (pjoin dir n) = Some c -> d' = d).
Proof.
  unfold builder_write, read_file. cbv beta iota. intros H.
  assert (G : create_and_write io (pjoin dir n) c d = (d', None) -> d' = put (pjoin dir n) c d).
  { unfold create_and_write. destruct (io (pjoin dir n)); intros X; try discriminate X. injection X as <-. reflexivity. }
  unfold held in *. destruct (sget (pjoin dir n) (fs_files d)) as [f|] eqn:S.
  - destruct (String.eqb_spec (fl_content f) c) as [E|E].
    + injection H as <-. rewrite S, E. auto.
    + apply G in H as ->. unfold put; cbn [fs_files]. rewrite sget_sset_same. split; [reflexivity|]. split.
      * intros p N. apply sget_sset_other, N.
      * congruence.
  - apply G in H as ->. unfold put; cbn [fs_files]. rewrite sget_sset_same. split; [reflexivity|]. split.
    + intros p N. apply sget_sset_other, N.
    + discriminate.
Qed.

Theorem c36_builder_last_content :
  forall io l d d', builder_writes (fun _ => true) io l d = (d', None) ->
    (forall p c, In (p, c) (built l) -> exists before x, contents p (built l) = (before ++ [x])%list /\ held d' p = Some x)
    /\ (forall p, ~ In p (map fst (built l)) -> sget p (fs_files d') = sget p (fs_files d)).
Proof.
  intros io. induction l as [|[[dir n] c] l IH]; intros d d' R.
  - injection R as <-. split; [intros p c []|reflexivity].
  - cbn [builder_writes] in R. destruct (builder_write _ io dir n c d) as [d1 e] eqn:W. destruct e; [discriminate R|].
    destruct (IH _ _ R) as [A B]. apply builder_spec in W as (H1 & O1 & _). cbn [built map fst snd]. fold (built l). split.
    + intros p x I. rewrite contents_cons. destruct (contents p (built l)) as [|y ys] eqn:C.
      * assert (NI : ~ In p (map fst (built l))).
        { intros J. apply in_map_iff in J as ([k z] & K & J). cbn in K; subst k. apply contents_In in J. rewrite C in J. exact J. }
        destruct I as [I|I]; [|destruct NI; apply in_map_iff; exists (p, x); auto].
        injection I as <- <-. rewrite String.eqb_refl. exists [], c. split; [reflexivity|]. unfold held in *. rewrite B by exact NI. exact H1.
      * assert (I' : In (p, y) (built l)) by (apply contents_In; rewrite C; left; reflexivity).
        destruct (A p y I') as (cs & z & E & H). rewrite C in E. rewrite E.
        destruct (String.eqb (pjoin dir n) p); [exists (c :: cs), z|exists cs, z]; auto.
    + intros p NI. rewrite B by (intros J; apply NI; right; exact J). apply O1. intros ->. apply NI; left; reflexivity.
Qed.
Print Assumptions c36_builder_last_content.

Theorem c36_builder_rebuild_touches_nothing :
  forall io io' l l' d d', builder_writes (fun _ => true) io l d = (d', None) ->
    consistent (built l) -> incl l' l -> builder_writes (fun _ => true) io' l' d' = (d', None).
Proof.
  intros io io' l l' d d' R C Sub. apply c36_builder_last_content in R as [A _].
  assert (G : forall p c, In (p, c) (built l) -> held d' p = Some c).
  { intros p c I. destruct (A p c I) as (b & x & E & H). rewrite H. f_equal. apply (C p x c); [|exact I].
    apply contents_In. rewrite E. apply in_or_app. right; left; reflexivity. }
  clear A C. induction l' as [|[[dir n] c] l' IH]; [reflexivity|].
  cbn [builder_writes]. unfold builder_write, read_file.
  assert (H : held d' (pjoin dir n) = Some c).
  { apply G. apply in_map_iff. exists (dir, n, c). split; [reflexivity|]. apply Sub. left; reflexivity. }
  unfold held in H. destruct (sget (pjoin dir n) (fs_files d')); [|discriminate H]. injection H as ->.
  rewrite String.eqb_refl. apply IH. intros x I. apply Sub. right; exact I.
Qed.
Print Assumptions c36_builder_rebuild_touches_nothing.
