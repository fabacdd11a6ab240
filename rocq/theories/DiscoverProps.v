(** What the search through the user's Rust code finds (C48, C70, C71). *)
From Verif Require Import Base ConfigModel DiscoverModel.
Local Open Scope list_scope.

(** ** Notions *)

(** A node of the given kind is somewhere in a tree; the way to it is given by
    the kinds of the nodes passed and the roles of the children entered. *)
Inductive occurs : node -> list (kind * role) -> kind -> Prop :=
| occ_here k ch : occurs (Node k ch) [] k
| occ_in k ch r c way x : In (r, c) ch -> occurs c way x -> occurs (Node k ch) ((k, r) :: way) x.

(** All the steps of a way are of the kind which the search takes. *)
Definition seen (way : list (kind * role)) : Prop := Forall (fun e => visits (fst e) (snd e) = true) way.
(** The modules passed on a way. *)
Definition modules (way : list (kind * role)) : list string :=
  flat_map (fun e => match fst e with KMod id => [id] | _ => [] end) way.
Definition mod_list (mp : option rust_path) : rust_path := match mp with None => [] | Some p => p end.

(** ** The search as a whole *)

Fixpoint node_ind' (P : node -> Prop) (H : forall k ch, Forall (fun e => P (snd e)) ch -> P (Node k ch)) (n : node) : P n :=
  match n with
  | Node k ch =>
      H k ch ((fix go (l : list (role * node)) : Forall (fun e => P (snd e)) l :=
                 match l with
                 | [] => Forall_nil _
                 | e :: l' => Forall_cons _ (node_ind' P H (snd e)) (go l')
                 end) ch)
  end.

Section Search.
Variable with_self : self_type -> signature -> signature.
Notation search := (search with_self).
Notation own := (own with_self).

Fixpoint kids (mp : option rust_path) (k : kind) (l : list (role * node)) (d : discoveries) : res discoveries disc_err :=
  match l with
  | [] => Ok d
  | (r, c) :: l' =>
      if visits k r then
        match search (inner_mod mp k) (inner_recv mp k) c d with
        | Ok d' => kids mp k l' d'
        | Err e => Err e
        end
      else kids mp k l' d
  end.
Lemma search_eq mp recv k ch d :
  search mp recv (Node k ch) d
  = match k with
    | KFn _ _ => match kids mp k ch d with Ok d' => own mp recv k d' | Err e => Err e end
    | _ => match own mp recv k d with Ok d' => kids mp k ch d' | Err e => Err e end
    end.
Proof.
  assert (G : forall l d, (fix kids (l : list (role * node)) (d : discoveries) :=
        match l with
        | [] => Ok d
        | (r, c) :: l' =>
            if visits k r then
              match search (inner_mod mp k) (inner_recv mp k) c d with
              | Ok d' => kids l' d'
              | Err e => Err e
              end
            else kids l' d
        end) l d = kids mp k l d).
  { induction l as [|[r c] l IH]; intros d0; [reflexivity|]. cbn. destruct (visits k r); [|apply IH].
    destruct (search (inner_mod mp k) (inner_recv mp k) c d0); [apply IH|reflexivity]. }
  cbn [DiscoverModel.search]. destruct k; try (rewrite G; reflexivity);
    (match goal with |- match ?o with _ => _ end = _ => destruct o; [apply G|reflexivity] end).
Qed.

(** What the search reaches, with the module and class around it. *)
Inductive reach : option rust_path -> option rust_path -> node -> option rust_path -> option rust_path -> kind -> Prop :=
| reach_here mp recv k ch : reach mp recv (Node k ch) mp recv k
| reach_in mp recv k ch r c mp' recv' x :
    In (r, c) ch -> visits k r = true -> reach (inner_mod mp k) (inner_recv mp k) c mp' recv' x ->
    reach mp recv (Node k ch) mp' recv' x.

Definition adds_cpp (k : kind) : list string :=
  match k with KPath (f :: rest) => if String.eqb f "ffi" then [join "::" rest] else [] | _ => [] end.
Definition adds_funs (mp recv : option rust_path) (k : kind) : list rust_fun :=
  match k with
  | KFn true s => [RustFun (deeper_path mp (sig_ident s)) s false]
  | KImplFn true s first =>
      match recv with
      | Some r => match add_receiver with_self s first (last r "") with Ok s' => [RustFun [sig_ident s] s' true] | Err _ => [] end
      | None => []
      end
  | _ => []
  end.
Definition adds_types (mp recv : option rust_path) (k : kind) : list rust_path :=
  match k with
  | KStruct true id | KEnum true id => [deeper_path mp id]
  | KImplFn true s first => match recv with Some r => [r] | None => [] end
  | _ => []
  end.
(** What would stop the search. *)
Definition stops (mp recv : option rust_path) (k : kind) : bool :=
  match k with
  | KImplFn true s first =>
      match mp, recv, first with
      | None, Some r, (Receiver _ | Typed) => negb (Nat.eqb (List.length r) 1)
      | _, _, _ => true
      end
  | _ => false
  end.

Lemma set_insert_In s x l : In x (set_insert s l) <-> In x l \/ x = s.
Proof.
  unfold set_insert. destruct (smem s l) eqn:M.
  - apply smem_In in M. split; [auto|]. intros [I| ->]; assumption.
  - rewrite in_app_iff. cbn. intuition.
Qed.

Lemma own_ok mp recv k d d' : own mp recv k d = Ok d' ->
  (forall x, In x (d_cpp d') <-> In x (d_cpp d) \/ In x (adds_cpp k))
  /\ (forall x, In x (d_funs d') <-> In x (d_funs d) \/ In x (adds_funs mp recv k))
  /\ (forall x, In x (d_types d') <-> In x (d_types d) \/ In x (adds_types mp recv k))
  /\ stops mp recv k = false.
Proof.
  unfold DiscoverModel.own, adds_cpp, adds_funs, adds_types, stops.
  destruct k; intros H; try (injection H as <-; cbn; repeat split; tauto).
  - destruct exported; injection H as <-; cbn [d_cpp d_funs d_types]; repeat split; rewrite ?in_app_iff; cbn; tauto.
  - destruct exported; [|injection H as <-; cbn; repeat split; tauto].
    destruct mp as [m|]; [discriminate H|]. destruct recv as [r|]; [|discriminate H]. unfold add_receiver in *.
    destruct first as [|t|]; [discriminate H| |]; destruct (Nat.eqb (List.length r) 1) eqn:E; try discriminate H;
      injection H as <-; cbn [d_cpp d_funs d_types deeper_path negb]; repeat split; rewrite ?in_app_iff; cbn; tauto.
  - destruct exported; injection H as <-; cbn [d_cpp d_funs d_types]; repeat split; rewrite ?in_app_iff; cbn; tauto.
  - destruct exported; injection H as <-; cbn [d_cpp d_funs d_types]; repeat split; rewrite ?in_app_iff; cbn; tauto.
  - destruct segs as [|f rest]; [injection H as <-; cbn; repeat split; tauto|].
    destruct (String.eqb f "ffi"); injection H as <-; cbn [d_cpp d_funs d_types]; split; [|cbn; repeat split; tauto| |cbn; repeat split; tauto].
    + intros x. rewrite set_insert_In. cbn. intuition.
    + intros x. cbn. tauto.
Qed.
Lemma own_err mp recv k d e : own mp recv k d = Err e -> stops mp recv k = true.
Proof.
  unfold DiscoverModel.own, stops. destruct k; intros H; try discriminate H; try (destruct exported; discriminate H).
  - destruct exported; [|discriminate H]. destruct mp; [reflexivity|]. destruct recv as [r|]; [|reflexivity].
    unfold add_receiver in H. destruct first; [reflexivity| |]; destruct (Nat.eqb (List.length r) 1); try discriminate H; reflexivity.
  - destruct segs as [|f rest]; [discriminate H|]. destruct (String.eqb f "ffi"); discriminate H.
Qed.

(** The search ends well if and only if nothing it reaches stops it, and then holds what
    was there before and what is added by the nodes reached. *)
Lemma search_spec n : forall mp recv d,
  match search mp recv n d with
  | Ok d' =>
      (forall x, In x (d_cpp d') <-> In x (d_cpp d) \/ exists mp' recv' k, reach mp recv n mp' recv' k /\ In x (adds_cpp k))
      /\ (forall x, In x (d_funs d') <-> In x (d_funs d) \/ exists mp' recv' k, reach mp recv n mp' recv' k /\ In x (adds_funs mp' recv' k))
      /\ (forall x, In x (d_types d') <-> In x (d_types d) \/ exists mp' recv' k, reach mp recv n mp' recv' k /\ In x (adds_types mp' recv' k))
      /\ (forall mp' recv' k, reach mp recv n mp' recv' k -> stops mp' recv' k = false)
  | Err _ => exists mp' recv' k, reach mp recv n mp' recv' k /\ stops mp' recv' k = true
  end.
Proof.
  induction n as [k ch IH] using node_ind'. intros mp recv d.
  (* the children first *)
  assert (K : forall l d, (forall e, In e l -> In e ch) ->
    match kids mp k l d with
    | Ok d' =>
        (forall x, In x (d_cpp d') <-> In x (d_cpp d) \/ exists r c mp' recv' k', In (r, c) l /\ visits k r = true /\ reach (inner_mod mp k) (inner_recv mp k) c mp' recv' k' /\ In x (adds_cpp k'))
        /\ (forall x, In x (d_funs d') <-> In x (d_funs d) \/ exists r c mp' recv' k', In (r, c) l /\ visits k r = true /\ reach (inner_mod mp k) (inner_recv mp k) c mp' recv' k' /\ In x (adds_funs mp' recv' k'))
        /\ (forall x, In x (d_types d') <-> In x (d_types d) \/ exists r c mp' recv' k', In (r, c) l /\ visits k r = true /\ reach (inner_mod mp k) (inner_recv mp k) c mp' recv' k' /\ In x (adds_types mp' recv' k'))
        /\ (forall r c mp' recv' k', In (r, c) l -> visits k r = true -> reach (inner_mod mp k) (inner_recv mp k) c mp' recv' k' -> stops mp' recv' k' = false)
    | Err _ => exists r c mp' recv' k', In (r, c) l /\ visits k r = true /\ reach (inner_mod mp k) (inner_recv mp k) c mp' recv' k' /\ stops mp' recv' k' = true
    end).
  { clear d. induction l as [|[r c] l IHl]; intros d Sub; cbn [kids].
    - split; [|split; [|split]]; try (intros x; split; [auto|intros [I|(r & c & ? & ? & ? & [] & _)]; exact I]). intros r c ? ? ? [].
    - assert (IHc := proj1 (Forall_forall _ _) IH (r, c) (Sub _ (or_introl eq_refl)) (inner_mod mp k) (inner_recv mp k) d). cbn [snd] in IHc.
      assert (SubL : forall e, In e l -> In e ch) by (intros e I; apply Sub; right; exact I).
      destruct (visits k r) eqn:V.
      + destruct (search (inner_mod mp k) (inner_recv mp k) c d) as [d1|e].
        * specialize (IHl d1 SubL). destruct (kids mp k l d1) as [d2|e].
          -- destruct IHc as (A1 & B1 & C1 & D1), IHl as (A2 & B2 & C2 & D2).
             split; [|split; [|split]].
             ++ intros x. rewrite A2, A1. split.
                ** intros [[I|(m & v & k' & R & I)]|(r' & c' & m & v & k' & J & V' & R & I)]; [auto| |].
                   --- right. exists r, c, m, v, k'. split; [left; reflexivity|auto].
                   --- right. exists r', c', m, v, k'. split; [right; exact J|auto].
                ** intros [I|(r' & c' & m & v & k' & [J|J] & V' & R & I)]; [auto| |].
                   --- injection J as <- <-. left; right. eauto.
                   --- right. exists r', c', m, v, k'. auto.
             ++ intros x. rewrite B2, B1. split.
                ** intros [[I|(m & v & k' & R & I)]|(r' & c' & m & v & k' & J & V' & R & I)]; [auto| |].
                   --- right. exists r, c, m, v, k'. split; [left; reflexivity|auto].
                   --- right. exists r', c', m, v, k'. split; [right; exact J|auto].
                ** intros [I|(r' & c' & m & v & k' & [J|J] & V' & R & I)]; [auto| |].
                   --- injection J as <- <-. left; right. eauto.
                   --- right. exists r', c', m, v, k'. auto.
             ++ intros x. rewrite C2, C1. split.
                ** intros [[I|(m & v & k' & R & I)]|(r' & c' & m & v & k' & J & V' & R & I)]; [auto| |].
                   --- right. exists r, c, m, v, k'. split; [left; reflexivity|auto].
                   --- right. exists r', c', m, v, k'. split; [right; exact J|auto].
                ** intros [I|(r' & c' & m & v & k' & [J|J] & V' & R & I)]; [auto| |].
                   --- injection J as <- <-. left; right. eauto.
                   --- right. exists r', c', m, v, k'. auto.
             ++ intros r' c' m v k' [J|J] V' R; [injection J as <- <-; exact (D1 m v k' R)|exact (D2 r' c' m v k' J V' R)].
          -- destruct IHl as (r' & c' & m & v & k' & J & V' & R & S). exists r', c', m, v, k'. split; [right; exact J|auto].
        * destruct IHc as (m & v & k' & R & S). exists r, c, m, v, k'. split; [left; reflexivity|auto].
      + specialize (IHl d SubL). destruct (kids mp k l d) as [d2|e].
        * destruct IHl as (A2 & B2 & C2 & D2). split; [|split; [|split]].
          -- intros x. rewrite A2. split; (intros [I|(r' & c' & m & v & k' & J & V' & R & I)]; [auto|]); right.
             ++ exists r', c', m, v, k'. split; [right; exact J|auto].
             ++ destruct J as [J|J]; [injection J as <- <-; congruence|]. exists r', c', m, v, k'. auto.
          -- intros x. rewrite B2. split; (intros [I|(r' & c' & m & v & k' & J & V' & R & I)]; [auto|]); right.
             ++ exists r', c', m, v, k'. split; [right; exact J|auto].
             ++ destruct J as [J|J]; [injection J as <- <-; congruence|]. exists r', c', m, v, k'. auto.
          -- intros x. rewrite C2. split; (intros [I|(r' & c' & m & v & k' & J & V' & R & I)]; [auto|]); right.
             ++ exists r', c', m, v, k'. split; [right; exact J|auto].
             ++ destruct J as [J|J]; [injection J as <- <-; congruence|]. exists r', c', m, v, k'. auto.
          -- intros r' c' m v k' [J|J] V' R; [injection J as <- <-; congruence|exact (D2 r' c' m v k' J V' R)].
        * destruct IHl as (r' & c' & m & v & k' & J & V' & R & S). exists r', c', m, v, k'. split; [right; exact J|auto]. }
  assert (INV : forall m v k', reach mp recv (Node k ch) m v k' ->
    (m = mp /\ v = recv /\ k' = k) \/ exists r c, In (r, c) ch /\ visits k r = true /\ reach (inner_mod mp k) (inner_recv mp k) c m v k').
  { intros m v k' R. inversion R; subst; [auto|]. right. eauto. }
  (* one combination for both orders *)
  assert (OK : forall d1 d2 d3,
     (own mp recv k d1 = Ok d2 /\ kids mp k ch d2 = Ok d3) \/ (kids mp k ch d1 = Ok d2 /\ own mp recv k d2 = Ok d3) ->
      (forall x, In x (d_cpp d3) <-> In x (d_cpp d1) \/ exists mp' recv' k', reach mp recv (Node k ch) mp' recv' k' /\ In x (adds_cpp k'))
      /\ (forall x, In x (d_funs d3) <-> In x (d_funs d1) \/ exists mp' recv' k', reach mp recv (Node k ch) mp' recv' k' /\ In x (adds_funs mp' recv' k'))
      /\ (forall x, In x (d_types d3) <-> In x (d_types d1) \/ exists mp' recv' k', reach mp recv (Node k ch) mp' recv' k' /\ In x (adds_types mp' recv' k'))
      /\ (forall mp' recv' k', reach mp recv (Node k ch) mp' recv' k' -> stops mp' recv' k' = false)).
  { intros d1 d2 d3 H.
    assert (G : exists dk, match kids mp k ch dk with Ok _ => True | Err _ => False end
      /\ ((forall x, In x (d_cpp d3) <-> (In x (d_cpp d1) \/ In x (adds_cpp k)) \/ exists r c mp' recv' k', In (r, c) ch /\ visits k r = true /\ reach (inner_mod mp k) (inner_recv mp k) c mp' recv' k' /\ In x (adds_cpp k'))
      /\ (forall x, In x (d_funs d3) <-> (In x (d_funs d1) \/ In x (adds_funs mp recv k)) \/ exists r c mp' recv' k', In (r, c) ch /\ visits k r = true /\ reach (inner_mod mp k) (inner_recv mp k) c mp' recv' k' /\ In x (adds_funs mp' recv' k'))
      /\ (forall x, In x (d_types d3) <-> (In x (d_types d1) \/ In x (adds_types mp recv k)) \/ exists r c mp' recv' k', In (r, c) ch /\ visits k r = true /\ reach (inner_mod mp k) (inner_recv mp k) c mp' recv' k' /\ In x (adds_types mp' recv' k'))
      /\ stops mp recv k = false
      /\ (forall r c mp' recv' k', In (r, c) ch -> visits k r = true -> reach (inner_mod mp k) (inner_recv mp k) c mp' recv' k' -> stops mp' recv' k' = false))).
    { destruct H as [[O KK]|[KK O]].
      - exists d2. assert (KS := K ch d2 (fun e I => I)). rewrite KK in *. split; [exact I|].
        apply own_ok in O as (A1 & B1 & C1 & S). destruct KS as (A2 & B2 & C2 & D2).
        split; [intros x; rewrite A2, A1; tauto|]. split; [intros x; rewrite B2, B1; tauto|]. split; [intros x; rewrite C2, C1; tauto|]. auto.
      - exists d1. assert (KS := K ch d1 (fun e I => I)). rewrite KK in *. split; [exact I|].
        apply own_ok in O as (A1 & B1 & C1 & S). destruct KS as (A2 & B2 & C2 & D2).
        split; [intros x; rewrite A1, A2; tauto|]. split; [intros x; rewrite B1, B2; tauto|]. split; [intros x; rewrite C1, C2; tauto|]. auto. }
    destruct G as (dk & _ & A & B & C & S & D).
    split; [|split; [|split]].
    - intros x. rewrite A. split.
      + intros [[I|I]|(r & c & m & v & k' & J & V & R & I)]; [auto| |]; right.
        * exists mp, recv, k. split; [constructor|exact I].
        * exists m, v, k'. split; [econstructor; eassumption|exact I].
      + intros [I|(m & v & k' & R & I)]; [auto|]. apply INV in R as [(-> & -> & ->)|(r & c & J & V & R)]; [auto|]. right. exists r, c, m, v, k'. auto.
    - intros x. rewrite B. split.
      + intros [[I|I]|(r & c & m & v & k' & J & V & R & I)]; [auto| |]; right.
        * exists mp, recv, k. split; [constructor|exact I].
        * exists m, v, k'. split; [econstructor; eassumption|exact I].
      + intros [I|(m & v & k' & R & I)]; [auto|]. apply INV in R as [(-> & -> & ->)|(r & c & J & V & R)]; [auto|]. right. exists r, c, m, v, k'. auto.
    - intros x. rewrite C. split.
      + intros [[I|I]|(r & c & m & v & k' & J & V & R & I)]; [auto| |]; right.
        * exists mp, recv, k. split; [constructor|exact I].
        * exists m, v, k'. split; [econstructor; eassumption|exact I].
      + intros [I|(m & v & k' & R & I)]; [auto|]. apply INV in R as [(-> & -> & ->)|(r & c & J & V & R)]; [auto|]. right. exists r, c, m, v, k'. auto.
    - intros m v k' R. apply INV in R as [(-> & -> & ->)|(r & c & J & V & R)]; [exact S|]. exact (D r c m v k' J V R). }
  assert (ERR : forall d1,
     (exists e, own mp recv k d1 = Err e) \/ (exists e, kids mp k ch d1 = Err e) ->
     exists mp' recv' k', reach mp recv (Node k ch) mp' recv' k' /\ stops mp' recv' k' = true).
  { intros d1 [[e O]|[e KK]].
    - exists mp, recv, k. split; [constructor|]. eapply own_err, O.
    - assert (KS := K ch d1 (fun e I => I)). rewrite KK in KS. destruct KS as (r & c & m & v & k' & J & V & R & S).
      exists m, v, k'. split; [econstructor; eassumption|exact S]. }
  rewrite search_eq.
  assert (FIRST : match match own mp recv k d with Ok d' => kids mp k ch d' | Err e => Err e end with
    | Ok d' =>
      (forall x, In x (d_cpp d') <-> In x (d_cpp d) \/ exists mp' recv' k', reach mp recv (Node k ch) mp' recv' k' /\ In x (adds_cpp k'))
      /\ (forall x, In x (d_funs d') <-> In x (d_funs d) \/ exists mp' recv' k', reach mp recv (Node k ch) mp' recv' k' /\ In x (adds_funs mp' recv' k'))
      /\ (forall x, In x (d_types d') <-> In x (d_types d) \/ exists mp' recv' k', reach mp recv (Node k ch) mp' recv' k' /\ In x (adds_types mp' recv' k'))
      /\ (forall mp' recv' k', reach mp recv (Node k ch) mp' recv' k' -> stops mp' recv' k' = false)
    | Err _ => exists mp' recv' k', reach mp recv (Node k ch) mp' recv' k' /\ stops mp' recv' k' = true
    end).
  { destruct (own mp recv k d) as [d1|e] eqn:O; [|apply (ERR d); eauto].
    destruct (kids mp k ch d1) as [d2|e] eqn:KK; [apply (OK d d1 d2); auto|apply (ERR d1); eauto]. }
  destruct k; try exact FIRST. clear FIRST.
  destruct (kids mp _ ch d) as [d1|e] eqn:KK; [|apply (ERR d); eauto].
  destruct (own mp recv _ d1) as [d2|e] eqn:O; [apply (OK d d1 d2); auto|apply (ERR d1); eauto].
Qed.

(** The way to what is reached. *)
Definition mods_after (mp : option rust_path) (way : list (kind * role)) : option rust_path :=
  fold_left (fun m e => inner_mod m (fst e)) way mp.
Lemma reach_occurs mp recv n mp' recv' k : reach mp recv n mp' recv' k ->
  exists way, occurs n way k /\ seen way /\ mp' = mods_after mp way
    /\ (recv' = recv /\ way = [] \/ exists way' e, way = way' ++ [e] /\ recv' = inner_recv (mods_after mp way') (fst e)).
Proof.
  induction 1 as [mp recv k ch|mp recv k ch r c mp' recv' x I V R (way & O & S & M & Q)].
  - exists []. split; [constructor|]. split; [constructor|]. split; [reflexivity|]. auto.
  - exists ((k, r) :: way). split; [econstructor; eassumption|]. split; [constructor; [exact V|exact S]|]. split; [exact M|]. right.
    destruct Q as [[-> ->]|(way' & e & -> & ->)].
    + exists [], (k, r). auto.
    + exists ((k, r) :: way'), e. auto.
Qed.
Lemma occurs_reach n way k : occurs n way k -> seen way -> forall mp recv,
  reach mp recv n (mods_after mp way) (match rev way with [] => recv | e :: w => inner_recv (mods_after mp (rev w)) (fst e) end) k.
Proof.
  induction 1 as [k ch|k ch r c way x I O IH]; intros S mp recv; [constructor|].
  apply Forall_cons_iff in S as [V S]. eapply reach_in; [exact I|exact V|]. specialize (IH S (inner_mod mp k) (inner_recv mp k)).
  cbn [rev]. destruct (rev way) as [|e w] eqn:W.
  - apply (f_equal (@rev _)) in W. rewrite rev_involutive in W. subst way. exact IH.
  - cbn [app]. rewrite rev_app_distr. exact IH.
Qed.

Lemma mods_after_modules way : forall mp, mod_list (mods_after mp way) = mod_list mp ++ modules way /\ (mods_after mp way = None <-> mp = None /\ modules way = []).
Proof.
  induction way as [|e way IH]; intros mp.
  - rewrite app_nil_r. split; [reflexivity|]. cbn. tauto.
  - cbn [mods_after fold_left]. fold (mods_after (inner_mod mp (fst e)) way). destruct (IH (inner_mod mp (fst e))) as [A B]. rewrite A, B.
    unfold modules. cbn [flat_map]. fold (modules way). unfold inner_mod. destruct (fst e); try (split; [reflexivity|tauto]).
    cbn [app]. unfold deeper_path. split.
    + destruct mp as [p|]; cbn; [rewrite <- app_assoc; reflexivity|reflexivity].
    + split; [intros [X _]; discriminate X|intros [_ X]; discriminate X].
Qed.
Lemma deeper_mods mp id : deeper_path mp id = mod_list mp ++ [id].
Proof. destruct mp; reflexivity. Qed.
End Search.

(** ** C48 *)

(** A search which ends well has found exactly the paths which begin with [ffi]
    in the places where it looks. *)
Theorem c48_found_iff :
  forall ws mp n d, search ws mp None n no_discoveries = Ok d ->
    forall s, In s (d_cpp d) <-> exists way rest, occurs n way (KPath ("ffi" :: rest)) /\ seen way /\ s = join "::" rest.
Proof.
  intros ws mp n d H s. assert (S := search_spec ws n mp None no_discoveries). rewrite H in S. destruct S as (A & _). rewrite A. split.
  - intros [[]|(m & v & k & R & I)]. destruct (reach_occurs _ _ _ _ _ _ R) as (way & O & SE & _). exists way.
    destruct k; try destruct I. destruct segs as [|f rest]; [destruct I|]. cbn in I. destruct (String.eqb_spec f "ffi") as [->|_]; [|destruct I].
    destruct I as [<-|[]]. exists rest. auto.
  - intros (way & rest & O & SE & ->). right. do 3 eexists. split; [exact (occurs_reach _ _ _ O SE mp None)|]. left. reflexivity.
Qed.
Print Assumptions c48_found_iff.

(** The places where it does look, in full: function bodies, parameter and
    result types; blocks, operands, arguments, conditions, branches, initial values, patterns of [let];
    generic arguments; bounds. *)
Inductive covered : kind -> role -> Prop :=
| cov_fn b s r : In r [RBody; ROutput; RPat; RType] -> covered (KFn b s) r
| cov_impl t : covered (KImpl t) RItem
| cov_method b s f : covered (KImplFn b s f) RBody
| cov_mod id : covered (KMod id) RItem
| cov_trait : covered KTrait RItem
| cov_trait_fn : covered KTraitFn RBody
| cov_let r : In r [RInit; RPat] -> covered KLocal r
| cov_block k : In k [KAsync; KBlock; KConst; KLoop; KTryBlock; KUnsafe; KPatConst] -> covered k RBody
| cov_operand k : In k [KAwait; KField; KBreak; KCast; KGroup; KParen; KReference; KTry; KUnary; KReturn; KYield; KForLoop; KIndex; KLet; KMatch; KMethodCall; KRepeat] -> covered k RExpr
| cov_binary k r : In k [KAssign; KBinary] -> In r [RLeft; RRight] -> covered k r
| cov_args k : In k [KArray; KCall; KMethodCall; KTuple; KTyBareFn; KTyTuple; KPatOr; KPatSlice; KPatTuple; KPatTupleStruct; KAngle; KParenthesized] -> covered k RArg
| cov_callee : covered KCall RFunc
| cov_closure : covered KClosure RBody
| cov_for : covered KForLoop RBody
| cov_if r : In r [RCond; RThen; RElse] -> covered KIf r
| cov_index : covered KIndex RIndex
| cov_if_let : covered KLet RPat
| cov_match : covered KMatch RArm
| cov_arm r : In r [RBody; RGuard] -> covered KArm r
| cov_range r : In r [RStart; REnd] -> covered KRange r
| cov_repeat : covered KRepeat RLen
| cov_literal r : In r [RField; RRest] -> covered KStructExpr r
| cov_while r : In r [RCond; RBody] -> covered KWhile r
| cov_path k : In k [KExprPath; KTyPath; KPatPath; KPatStruct; KPatTupleStruct; KBoundTrait] -> covered k RPath
| cov_type k : In k [KTyArray; KTyGroup; KTyParen; KTyPtr; KTyReference; KTySlice; KPatType; KArgType; KArgAssocType] -> covered k RType
| cov_output k : In k [KTyBareFn; KParenthesized] -> covered k ROutput
| cov_bound k : In k [KTyImplTrait; KTyTraitObject; KArgConstraint] -> covered k RBound
| cov_pat k : In k [KPatReference; KPatParen; KPatType] -> covered k RPat
| cov_pat_field : covered KPatStruct RField
| cov_generics segs : covered (KPath segs) RArguments
| cov_const k : In k [KArgConst; KArgAssocConst] -> covered k RExpr.

(** Every path through the module [ffi] in such a place is found. Missing from the
    full claim: the places of [c48_missed_refuted]. *)
Theorem c48_uses_found_partial :
  forall ws mp n d way s rest,
    search ws mp None n no_discoveries = Ok d ->
    occurs n way (KPath ("ffi" :: s :: rest)) -> Forall (fun e => covered (fst e) (snd e)) way ->
    In (join "::" (s :: rest)) (d_cpp d).
Proof.
  intros ws mp n d way s rest H O C. apply (c48_found_iff ws mp n d H). exists way, (s :: rest). split; [exact O|]. split; [|reflexivity].
  eapply Forall_impl; [|exact C]. intros [k r] X. cbn in *.
  destruct X; cbn in *; repeat match goal with
    | A : _ = _ \/ _ |- _ => destruct A as [<-|A]
    | A : False |- _ => destruct A
    end; reflexivity.
Qed.
Print Assumptions c48_uses_found_partial.

(** Nothing else is put on the list: each entry comes from a path which begins with [ffi]. *)
Theorem c48_nothing_else :
  forall ws mp n d s, search ws mp None n no_discoveries = Ok d -> In s (d_cpp d) ->
    exists way rest, occurs n way (KPath ("ffi" :: rest)) /\ s = join "::" rest.
Proof.
  intros ws mp n d s H I. apply (c48_found_iff ws mp n d H) in I as (way & rest & O & _ & E). eauto.
Qed.
Print Assumptions c48_nothing_else.

(** A tree with [ffi::A] at the given place in a function. *)
Definition use_ffi : node := Node (KPath ["ffi"; "A"]) [].
Definition in_fn (n : node) : node := Node (KFn false (Sig "f" "()")) [(RBody, n)].

(** Places where it does not look: the target of a cast, the parameters and the result of a closure, the pattern of a
    loop, the pattern of a match arm, explicit generic arguments of a method, the type of a struct literal, the
    other branch of [let else], the parameters and the result of methods, of trait functions,
    fields of structs, [const], [static] and [type] items, imports, self types of qualified paths, the
    length of an array type, what is behind [@] in a pattern, range patterns, the type and the
    trait of an [impl], and bounds of generic parameters. *)
Definition gaps : list (kind * role) :=
  [(KCast, RType); (KClosure, RPat); (KClosure, ROutput); (KForLoop, RPat); (KArm, RPat); (KMethodCall, RTurbofish); (KStructExpr, RPath);
   (KLocal, RDiverge); (KImplFn false (Sig "m" "(&self)") (Receiver (RefT false SelfT)), RType); (KImplFn false (Sig "m" "(&self)") (Receiver (RefT false SelfT)), ROutput);
   (KTraitFn, RType); (KTraitFn, ROutput); (KStruct false "S", RFieldType); (KOtherItem, RType); (KOtherItem, RExpr); (KOtherItem, RPath);
   (KExprPath, RQself); (KTyPath, RQself); (KTyArray, RLen); (KPatIdent, RSubpat); (KPatRange, RStart); (KImpl (Some "S"), RSelfTy);
   (KImpl None, RTrait); (KFn false (Sig "g" "()"), RGenerics)].
Theorem c48_missed_refuted :
  forall k r, In (k, r) gaps ->
    exists n way, occurs n way (KPath ["ffi"; "A"]) /\ In (k, r) way
      /\ forall ws, search ws None None n no_discoveries = Ok no_discoveries.
Proof.
  intros k r I. exists (in_fn (Node k [(r, use_ffi)])), [(KFn false (Sig "f" "()"), RBody); (k, r)].
  split; [|split].
  - econstructor; [left; reflexivity|]. econstructor; [left; reflexivity|]. constructor.
  - right; left; reflexivity.
  - intros ws. unfold gaps in I. repeat (destruct I as [I|I]; [injection I as <- <-; reflexivity|]). destruct I.
Qed.
Print Assumptions c48_missed_refuted.

(** The name [ffi] alone, as that of a variable, puts the empty name on the list. *)
Theorem c48_variable_refuted :
  exists n, forall ws, search ws None None n no_discoveries = Ok (Disc [""] [] []).
Proof. exists (in_fn (Node KExprPath [(RPath, Node (KPath ["ffi"]) [])])). reflexivity. Qed.
Print Assumptions c48_variable_refuted.

(** [fn bar(a: cxx::UniquePtr<ffi::xxx>) { ffi::a::f(x); }] *)
Example c48_case :
  let n := Node (KFn false (Sig "bar" "(a: cxx::UniquePtr<ffi::xxx>)"))
    [(RBody, Node KCall [(RFunc, Node KExprPath [(RPath, Node (KPath ["ffi"; "a"; "f"]) [])]); (RArg, Node KExprPath [(RPath, Node (KPath ["x"]) [])])]);
     (RType, Node KTyPath [(RPath, Node (KPath ["cxx"; "UniquePtr"]) [(RArguments, Node KAngle [(RArg, Node KArgType [(RType, Node KTyPath [(RPath, Node (KPath ["ffi"; "xxx"]) [])])])])])])] in
  (forall ws, search ws None None n no_discoveries = Ok (Disc ["a::f"; "xxx"] [] []))
  /\ exists way, occurs n way (KPath ["ffi"; "xxx"]) /\ Forall (fun e => covered (fst e) (snd e)) way.
Proof.
  split; [reflexivity|]. eexists. split.
  - econstructor; [right; left; reflexivity|]. econstructor; [left; reflexivity|]. econstructor; [left; reflexivity|].
    econstructor; [left; reflexivity|]. econstructor; [left; reflexivity|]. econstructor; [left; reflexivity|]. constructor.
  - apply Forall_cons; [apply cov_fn; cbn; tauto|]. apply Forall_cons; [apply cov_path; cbn; tauto|]. apply Forall_cons; [apply cov_generics|].
    apply Forall_cons; [apply cov_args; cbn; tauto|]. apply Forall_cons; [apply cov_type; cbn; tauto|]. apply Forall_cons; [apply cov_path; cbn; tauto|]. constructor.
Qed.

(** ** C70: exported items *)

(** A search which ends well has found exactly the exported functions, each
    under its path, and methods with the class in their receiver. *)
Theorem c70_functions :
  forall ws mp n d, search ws mp None n no_discoveries = Ok d ->
    forall f, In f (d_funs d) <->
      (exists way s, occurs n way (KFn true s) /\ seen way
         /\ f = RustFun (mod_list mp ++ modules way ++ [sig_ident s]) s false)
      \/ (exists way cls r s first, occurs n (way ++ [(KImpl (Some cls), r)]) (KImplFn true s first) /\ seen (way ++ [(KImpl (Some cls), r)])
         /\ mp = None /\ modules way = []
         /\ f = RustFun [sig_ident s] (match first with Receiver t => ws (substitute_self cls t) s | _ => s end) true).
Proof.
  intros ws mp n d H f. assert (S := search_spec ws n mp None no_discoveries). rewrite H in S. destruct S as (_ & B & _ & ST). rewrite B. split.
  - intros [[]|(m & v & k & R & I)]. assert (NS := ST m v k R). destruct (reach_occurs _ _ _ _ _ _ R) as (way & O & SE & M & Q).
    destruct k; try solve [destruct I]; destruct exported; try solve [destruct I].
    + left. destruct I as [<-|[]]. exists way, s. split; [exact O|]. split; [exact SE|]. rewrite deeper_mods, M, (proj1 (mods_after_modules way mp)), <- app_assoc. reflexivity.
    + right. cbn in I, NS. destruct m as [m|]; [discriminate NS|]. destruct v as [r|]; [|destruct I].
      destruct Q as [[X _]|(way' & [k e] & -> & Q)]; [discriminate X|]. cbn in Q. unfold inner_recv in Q. destruct k; try discriminate Q. destruct ty as [cls|]; [|discriminate Q].
      injection Q as Q. exists way', cls, e, s, first. split; [exact O|]. split; [exact SE|].
      symmetry in M. apply (proj2 (mods_after_modules (way' ++ [(KImpl (Some cls), e)]) mp)) in M as [-> M].
      unfold modules in M. rewrite flat_map_app in M. cbn in M. rewrite app_nil_r in M. fold (modules way') in M.
      assert (E : r = [cls]).
      { rewrite Q, deeper_mods, (proj1 (mods_after_modules way' None)), M. reflexivity. }
      rewrite E in I. cbn [last] in I. unfold add_receiver in I. split; [reflexivity|]. split; [exact M|].
      destruct first; [discriminate NS| |]; destruct I as [<-|[]]; reflexivity.
  - intros [(way & s & O & SE & ->)|(way & cls & r & s & first & O & SE & -> & M & ->)]; right.
    + do 3 eexists. split; [exact (occurs_reach _ _ _ O SE mp None)|]. left. rewrite deeper_mods, (proj1 (mods_after_modules way mp)), <- app_assoc. reflexivity.
    + assert (R := occurs_reach _ _ _ O SE None None). rewrite rev_app_distr in R. cbn [rev app] in R. rewrite rev_involutive in R.
      assert (NS := ST _ _ _ R).
      do 3 eexists. split; [exact R|]. cbn [fst inner_recv adds_funs]. rewrite deeper_mods, (proj1 (mods_after_modules way None)), M. cbn.
      unfold add_receiver. destruct first; [|left; reflexivity|left; reflexivity].
      cbn in NS. destruct (mods_after None (way ++ [(KImpl (Some cls), r)])); discriminate NS.
Qed.
Print Assumptions c70_functions.

(** It has found exactly the exported types, and the types which have exported
    methods. *)
Theorem c70_types :
  forall ws mp n d, search ws mp None n no_discoveries = Ok d ->
    forall p, In p (d_types d) <->
      (exists way id, (occurs n way (KStruct true id) \/ occurs n way (KEnum true id)) /\ seen way /\ p = mod_list mp ++ modules way ++ [id])
      \/ (exists way cls r s first, occurs n (way ++ [(KImpl (Some cls), r)]) (KImplFn true s first) /\ seen (way ++ [(KImpl (Some cls), r)])
         /\ p = [cls]).
Proof.
  intros ws mp n d H p. assert (S := search_spec ws n mp None no_discoveries). rewrite H in S. destruct S as (_ & _ & C & ST). rewrite C. split.
  - intros [[]|(m & v & k & R & I)]. assert (NS := ST m v k R). destruct (reach_occurs _ _ _ _ _ _ R) as (way & O & SE & M & Q).
    destruct k; try solve [destruct I]; destruct exported; try solve [destruct I].
    + right. cbn in I, NS. destruct m as [m|]; [discriminate NS|]. destruct v as [r|]; [|destruct I]. destruct I as [<-|[]].
      destruct Q as [[X _]|(way' & [k e] & -> & Q)]; [discriminate X|]. cbn in Q. unfold inner_recv in Q. destruct k; try discriminate Q. destruct ty as [cls|]; [|discriminate Q].
      injection Q as Q. exists way', cls, e, s, first. split; [exact O|]. split; [exact SE|].
      symmetry in M. apply (proj2 (mods_after_modules (way' ++ [(KImpl (Some cls), e)]) mp)) in M as [-> M].
      unfold modules in M. rewrite flat_map_app in M. cbn in M. rewrite app_nil_r in M. fold (modules way') in M.
      rewrite Q, deeper_mods, (proj1 (mods_after_modules way' None)), M. reflexivity.
    + left. destruct I as [<-|[]]. exists way, id. split; [auto|]. split; [exact SE|]. rewrite deeper_mods, M, (proj1 (mods_after_modules way mp)), <- app_assoc. reflexivity.
    + left. destruct I as [<-|[]]. exists way, id. split; [auto|]. split; [exact SE|]. rewrite deeper_mods, M, (proj1 (mods_after_modules way mp)), <- app_assoc. reflexivity.
  - intros [(way & id & [O|O] & SE & ->)|(way & cls & r & s & first & O & SE & ->)]; right.
    + do 3 eexists. split; [exact (occurs_reach _ _ _ O SE mp None)|]. left. rewrite deeper_mods, (proj1 (mods_after_modules way mp)), <- app_assoc. reflexivity.
    + do 3 eexists. split; [exact (occurs_reach _ _ _ O SE mp None)|]. left. rewrite deeper_mods, (proj1 (mods_after_modules way mp)), <- app_assoc. reflexivity.
    + assert (R := occurs_reach _ _ _ O SE mp None). rewrite rev_app_distr in R. cbn [rev app] in R. rewrite rev_involutive in R.
      assert (NS := ST _ _ _ R). do 3 eexists. split; [exact R|]. cbn [fst inner_recv adds_types]. left.
      cbn [fst inner_recv stops] in NS. destruct (mods_after mp (way ++ [(KImpl (Some cls), r)])) eqn:E; [discriminate NS|].
      apply mods_after_modules in E as [-> M]. unfold modules in M. rewrite flat_map_app in M. cbn in M. rewrite app_nil_r in M. fold (modules way) in M.
      rewrite deeper_mods, (proj1 (mods_after_modules way None)), M. reflexivity.
Qed.
Print Assumptions c70_types.

(** The search fails exactly if there is an exported method in a module, in an
    [impl] of a trait or of a type which is not a single name, or
    without parameters; it never panics. *)
Theorem c70_failure :
  forall ws mp n, (exists e, search ws mp None n no_discoveries = Err e) <->
    exists way s first, occurs n way (KImplFn true s first) /\ seen way
      /\ ~ (mp = None /\ modules way = [] /\ first <> NoParam /\ exists way' cls r, way = way' ++ [(KImpl (Some cls), r)]).
Proof.
  intros ws mp n. assert (S := search_spec ws n mp None no_discoveries). destruct (search ws mp None n no_discoveries) as [d|e] eqn:E.
  - destruct S as (_ & _ & _ & ST). split; [intros [e X]; discriminate X|]. intros (way & s & first & O & SE & N). exfalso. apply N. clear N.
    assert (R := occurs_reach _ _ _ O SE mp None). assert (NS := ST _ _ _ R). cbn in NS.
    destruct (mods_after mp way) eqn:M; [discriminate NS|]. apply mods_after_modules in M as [-> M]. split; [reflexivity|]. split; [exact M|].
    destruct (rev way) as [|[k e] w] eqn:W; [discriminate NS|]. cbn [fst] in NS. unfold inner_recv in NS.
    apply (f_equal (@rev _)) in W. rewrite rev_involutive in W. cbn [rev] in W.
    destruct k; try discriminate NS. destruct ty as [cls|]; [|discriminate NS]. split; [destruct first; discriminate|]. exists (rev w), cls, e. exact W.
  - split; [|eauto]. intros _. destruct S as (m & v & k & R & S). destruct (reach_occurs _ _ _ _ _ _ R) as (way & O & SE & M & Q).
    destruct k; try discriminate S. destruct exported; [|discriminate S]. exists way, s, first. split; [exact O|]. split; [exact SE|].
    intros (-> & MW & NP & way' & cls & r & ->). cbn in S.
    destruct Q as [[_ X]|(w' & e0 & X & Q)]; [destruct way'; discriminate X|]. apply app_inj_tail in X as [<- <-]. cbn in Q.
    unfold modules in MW. rewrite flat_map_app in MW. cbn in MW. rewrite app_nil_r in MW. fold (modules way') in MW.
    rewrite deeper_mods, (proj1 (mods_after_modules way' None)), MW in Q. cbn in Q. subst v.
    assert (M0 : m = None).
    { rewrite M. apply mods_after_modules. split; [reflexivity|]. unfold modules. rewrite flat_map_app. cbn. rewrite app_nil_r. exact MW. }
    rewrite M0 in S. destruct first; [congruence| |]; discriminate S.
Qed.
Print Assumptions c70_failure.

(** [struct A; impl A { fn bar(&self) {} }] with the method exported, and an
    exported function in a module. *)
Example c70_case :
  forall ws,
  search ws None None (Node (KImpl (Some "A")) [(RItem, Node (KImplFn true (Sig "bar" "(&self)") (Receiver (RefT false SelfT))) [])]) no_discoveries
  = Ok (Disc [] [RustFun ["bar"] (ws (RefT false (NameT "A" [])) (Sig "bar" "(&self)")) true] [["A"]])
  /\ search ws (Some ["m"]) None (Node (KFn true (Sig "g" "()")) []) no_discoveries = Ok (Disc [] [RustFun ["m"; "g"] (Sig "g" "()") false] [])
  /\ search ws (Some ["m"]) None (Node (KImpl (Some "A")) [(RItem, Node (KImplFn true (Sig "bar" "(&self)") (Receiver (RefT false SelfT))) [])]) no_discoveries = Err FunWithinMod.
Proof. repeat split. Qed.

(** An associated function without a receiver is exported as if it were a method. *)
Theorem c70_associated_function_refuted :
  exists n s, occurs n [(KImpl (Some "A"), RItem)] (KImplFn true s Typed)
    /\ forall ws, search ws None None n no_discoveries = Ok (Disc [] [RustFun ["new"] s true] [["A"]]).
Proof.
  exists (Node (KImpl (Some "A")) [(RItem, Node (KImplFn true (Sig "new" "(x: u32)") Typed) [])]), (Sig "new" "(x: u32)").
  split; [|reflexivity]. econstructor; [left; reflexivity|constructor].
Qed.
Print Assumptions c70_associated_function_refuted.

(** ** C71: receivers *)

Fixpoint mentions_self (t : self_type) : bool :=
  match t with
  | SelfT => true
  | RefT _ t' => mentions_self t'
  | NameT _ a => existsb mentions_self a
  end.
Fixpoint references_only (t : self_type) : bool :=
  match t with SelfT => true | RefT _ t' => references_only t' | NameT _ _ => false end.

(** The type of a receiver which is [self], [&self] or [&mut self] is written with the name of the class. *)
Theorem c71_receiver_partial :
  forall cls t, references_only t = true -> mentions_self (substitute_self cls t) = false.
Proof. intros cls t. induction t as [|m t IH|n a]; intros H; [reflexivity|exact (IH H)|discriminate H]. Qed.
Print Assumptions c71_receiver_partial.

(** But [self: Pin<&mut Self>] is left as it is. *)
Theorem c71_pin_refuted :
  exists t cls, mentions_self (substitute_self cls t) = true.
Proof. exists (NameT "Pin" [RefT true SelfT]), "A". reflexivity. Qed.
Print Assumptions c71_pin_refuted.
