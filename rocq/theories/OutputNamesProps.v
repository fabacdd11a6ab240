(** The names of the files which the command line tool and the build script
    write: they are all different (C40), and there are exactly as many as asked
    for (C33). *)
From Verif Require Import Base OutputModel OutputProps.

(** ** Injectivity of the names *)

Lemma digit_split a b c d x y :
  all_chars is_digit a = true -> all_chars is_digit b = true -> is_digit c = false -> is_digit d = false ->
  a +++ String c x = b +++ String d y -> a = b /\ c = d /\ x = y.
Proof.
  revert b; induction a as [|e a IH]; intros [|f b] A B C D H; cbn in *.
  - injection H as <- <-. auto.
  - injection H as <- _. apply andb_prop in B as [B _]. congruence.
  - injection H as -> _. apply andb_prop in A as [A _]. congruence.
  - injection H as <- H. apply andb_prop in A as [_ A]. apply andb_prop in B as [_ B].
    destruct (IH b A B C D H) as (-> & -> & ->). auto.
Qed.

Lemma numbered p n m x y : p +++ dec n +++ String "." x = p +++ dec m +++ String "." y -> n = m /\ x = y.
Proof.
  intros H. apply sapp_inj_l in H.
  destruct (digit_split _ _ "."%char "."%char _ _ (dec_digits n) (dec_digits m) eq_refl eq_refl H) as (E & _ & E'). apply dec_inj in E. auto.
Qed.

Lemma map_seq_nodup (f : nat -> string) a n : (forall i j, f i = f j -> i = j) -> NoDup (map f (seq a n)).
Proof. intros I. apply FinFun.Injective_map_NoDup; [exact I|apply seq_NoDup]. Qed.

Lemma cc_inj ext i j : name_cc_file ext i = name_cc_file ext j -> i = j.
Proof. intros H. apply (numbered "gen" i j) in H. tauto. Qed.
Lemma include_inj i j : name_include_rs i = name_include_rs j -> i = j.
Proof. intros H. apply (numbered "gen" i j) in H. tauto. Qed.
Lemma cxxgen_h_inj i j : name_cxxgen_h i = name_cxxgen_h j -> i = j.
Proof. intros H. apply (numbered "gen" i j) in H. tauto. Qed.
Lemma autocxxgen_h_inj i j : name_autocxxgen_h i = name_autocxxgen_h j -> i = j.
Proof. intros H. apply (numbered "autocxxgen" i j) in H. tauto. Qed.
Lemma default_cxxgen_inj i j : default_cxxgen_name i = default_cxxgen_name j -> i = j.
Proof.
  unfold default_cxxgen_name. destruct (Nat.eqb_spec i 0) as [->|N], (Nat.eqb_spec j 0) as [->|M]; intros H; try reflexivity.
  - exfalso. injection H as H. assert (D := dec_digits j). destruct (dec j) as [|c s] eqn:E; [exact (dec_nonempty j E)|].
    injection H as <- _. cbn in D. discriminate D.
  - exfalso. injection H as H. assert (D := dec_digits i). destruct (dec i) as [|c s] eqn:E; [exact (dec_nonempty i E)|].
    injection H as -> _. cbn in D. discriminate D.
  - apply (numbered "cxxgen" i j) in H. tauto.
Qed.
Lemma cxxgen_inj exact i j : cxxgen_name exact i = cxxgen_name exact j -> i = j.
Proof. destruct exact; [apply cxxgen_h_inj|apply default_cxxgen_inj]. Qed.
Lemma default_autocxxgen_inj a b : default_autocxxgen_name a = default_autocxxgen_name b -> a = b.
Proof. unfold default_autocxxgen_name. intros H. injection H as H. apply sapp_inj_r in H. exact H. Qed.

(** C40: the n-th cxx header is called differently from all others, the first
    is [cxxgen.h]; the headers of different modules are called differently. *)
Theorem c40_header_names :
  default_cxxgen_name 0 = "cxxgen.h"
  /\ (forall i j, default_cxxgen_name i = default_cxxgen_name j -> i = j)
  /\ (forall a b, default_autocxxgen_name a = default_autocxxgen_name b -> a = b)
  /\ (forall i j, name_cxxgen_h i = name_cxxgen_h j -> i = j)
  /\ (forall i j, name_autocxxgen_h i = name_autocxxgen_h j -> i = j)
  /\ (forall i j, name_include_rs i = name_include_rs j -> i = j)
  /\ (forall n a, default_cxxgen_name n <> default_autocxxgen_name a).
Proof.
  split; [reflexivity|]. split; [apply default_cxxgen_inj|]. split; [apply default_autocxxgen_inj|].
  split; [apply cxxgen_h_inj|]. split; [apply autocxxgen_h_inj|]. split; [apply include_inj|].
  intros n a. unfold default_cxxgen_name. destruct (n =? 0); discriminate.
Qed.
Print Assumptions c40_header_names.

(** ** The names in a plan *)

Definition names (l : list step) : list string := map fst (writes l).

(** No step of the list stops the run. *)
Definition goes_on (l : list step) : Prop := forall e, ~ In (SStop e) l.
Lemma writes_app a b : goes_on a -> writes (a ++ b) = (writes a ++ writes b)%list.
Proof.
  induction a as [|s a IH]; intros G; [reflexivity|]. destruct s as [n c|e]; [|destruct (G e); left; reflexivity].
  cbn. rewrite IH; [reflexivity|]. intros e I. apply (G e). right; exact I.
Qed.
Lemma goes_on_app a b : goes_on (a ++ b) <-> goes_on a /\ goes_on b.
Proof.
  unfold goes_on. split; [intros H; split; intros e I; apply (H e); apply in_or_app; auto|].
  intros [A B] e I. apply in_app_iff in I as [I|I]; [exact (A e I)|exact (B e I)].
Qed.

Lemma names_app a b : goes_on a -> names (a ++ b) = (names a ++ names b)%list.
Proof. intros G. unfold names. rewrite writes_app by exact G. apply map_app. Qed.

Lemma placeholders_ok counter desired name : goes_on (placeholders counter desired name) ->
  match desired with None => True | Some n => counter <= n end.
Proof.
  unfold placeholders. destruct desired as [n|]; [|trivial]. destruct (Nat.ltb_spec n counter); [|trivial].
  intros G. destruct (G (ETooMany counter)). left; reflexivity.
Qed.
Lemma placeholders_names counter desired name : goes_on (placeholders counter desired name) ->
  names (placeholders counter desired name)
  = match desired with None => [] | Some n => map name (seq counter (n - counter)) end.
Proof.
  unfold placeholders. destruct desired as [n|]; [|reflexivity]. destruct (Nat.ltb_spec n counter) as [L|L].
  - intros G. destruct (G (ETooMany counter)). left; reflexivity.
  - intros _. generalize (seq counter (n - counter)). induction l as [|i l IH]; [reflexivity|].
    unfold names in *. cbn. f_equal. exact IH.
Qed.

(** All pairs of header and source. *)
Fixpoint all_pairs (exact : bool) (cx : nat) (l : list generated) : option (list pair * nat) :=
  match l with
  | [] => Some ([], cx)
  | g :: l' =>
      match pairs_of exact cx g with
      | None => None
      | Some (ps, cx') =>
          match all_pairs exact cx' l' with
          | None => None
          | Some (qs, cx2) => Some (ps ++ qs, cx2)%list
          end
      end
  end.

Lemma pairs_steps_app ext c a b :
  pairs_steps ext c (a ++ b) = (pairs_steps ext c a ++ pairs_steps ext (c + List.length a) b)%list.
Proof.
  revert c; induction a as [|p a IH]; intros c; cbn [app pairs_steps List.length]; [rewrite Nat.add_0_r; reflexivity|].
  rewrite IH, <- app_assoc, <- plus_n_Sm. reflexivity.
Qed.
Lemma pairs_steps_goes_on ext c l : goes_on (pairs_steps ext c l).
Proof.
  revert c; induction l as [|p l IH]; intros c e I; [exact I|]. cbn in I. destruct I as [I|[I|I]]; try discriminate I.
  exact (IH _ _ I).
Qed.
Lemma cpp_steps_pairs exact ext c cx l :
  match all_pairs exact cx l with
  | Some (ps, cx') => cpp_steps exact ext c cx l = (pairs_steps ext c ps, Some (c + List.length ps, cx'))
  | None => exists st, cpp_steps exact ext c cx l = (st, None) /\ In (SStop EPanic) st
  end.
Proof.
  revert c cx; induction l as [|g l IH]; intros c cx; cbn [all_pairs cpp_steps].
  - cbn. rewrite Nat.add_0_r. reflexivity.
  - destruct (pairs_of exact cx g) as [[ps cx']|]; [|eexists; split; [reflexivity|left; reflexivity]].
    specialize (IH (c + List.length ps) cx'). destruct (all_pairs exact cx' l) as [[qs cx2]|].
    + rewrite IH, pairs_steps_app, app_length, Nat.add_assoc. reflexivity.
    + destruct IH as (st & -> & I). eexists. split; [reflexivity|]. apply in_or_app. auto.
Qed.

Lemma pairs_names ext c l :
  Permutation (names (pairs_steps ext c l)) (map (name_cc_file ext) (seq c (List.length l)) ++ map p_header_name l)%list.
Proof.
  revert c; induction l as [|p l IH]; intros c; [constructor|].
  cbn [pairs_steps List.length seq map]. rewrite names_app by (intros e [I|[I|[]]]; discriminate I).
  cbn [pair_steps names writes map fst app]. apply perm_skip. cbn [app].
  eapply perm_trans; [apply perm_skip, IH|]. apply Permutation_middle.
Qed.

(** ** The names given to headers *)

Definition cxx_names (l : list generated) : list string :=
  flat_map (fun g => match g with GAuto _ (Some (n, _)) => [n] | _ => [] end) l.
Definition extra_names (l : list generated) : list string :=
  flat_map (fun g => match g with GAuto _ (Some (_, Some x)) => [x] | _ => [] end) l.
Definition bridges (l : list generated) : nat :=
  List.length (filter (fun g => match g with GBridge _ _ => true | _ => false end) l).
(** Additional headers are given a name exactly if there is one. *)
Definition named_extra (g : generated) : Prop :=
  match g with GAuto b (Some (_, x)) => (x = None <-> b_extra b = None) | _ => True end.

Definition header_names_of (exact : bool) (l : list generated) (cx : nat) : list string :=
  (cxx_names l ++ map (cxxgen_name exact) (seq cx (bridges l)) ++ extra_names l)%list.

Lemma all_pairs_names exact l : forall cx ps cx', Forall named_extra l -> all_pairs exact cx l = Some (ps, cx') ->
  cx' = cx + bridges l /\ Permutation (map p_header_name ps) (header_names_of exact l cx).
Proof.
  induction l as [|g l IH]; intros cx ps cx' F H; cbn [all_pairs] in H.
  - injection H as <- <-. split; [symmetry; apply Nat.add_0_r|constructor].
  - destruct (pairs_of exact cx g) as [[p1 cx1]|] eqn:P; [|discriminate H].
    destruct (all_pairs exact cx1 l) as [[qs cx2]|] eqn:A; [|discriminate H]. injection H as <- <-.
    apply Forall_cons_iff in F as [Fg F]. destruct (IH _ _ _ F A) as [-> PM]. clear IH A.
    rewrite map_app. unfold header_names_of in *. destruct g as [b [[n x]|]|h cc]; cbn [pairs_of] in P.
    + injection P as <- <-. split; [reflexivity|]. cbn [cxx_names extra_names flat_map app]. fold (cxx_names l) (extra_names l).
      unfold bridges. cbn [filter]. fold (bridges l). cbn [map p_header_name app]. apply perm_skip. cbn in Fg.
      destruct x as [xn|], (b_extra b) as [[h cc]|]; cbn [map p_header_name app].
      * eapply perm_trans; [apply perm_skip, PM|]. rewrite !app_assoc. apply Permutation_middle.
      * discriminate (proj2 Fg eq_refl).
      * discriminate (proj1 Fg eq_refl).
      * exact PM.
    + discriminate P.
    + injection P as <- <-. unfold bridges. cbn [filter List.length]. fold (bridges l). split; [lia|].
      cbn [cxx_names extra_names flat_map app map p_header_name seq]. fold (cxx_names l) (extra_names l).
      eapply perm_trans; [apply perm_skip, PM|]. apply Permutation_middle.
Qed.

(** The modules of the blocks which have additional headers. *)
Definition extra_mods (l : list generated) : list string :=
  flat_map (fun g => match g with GAuto b (Some (_, Some _)) => [b_mod b] | _ => [] end) l.

Lemma resolve_names exact : forall l seen cx ac r cx' ac', resolve exact seen cx ac l = Ok (r, cx', ac') ->
  Forall named_extra r
  /\ cx <= cx' /\ ac <= ac'
  /\ cxx_names r = map (cxxgen_name exact) (seq cx (cx' - cx))
  /\ List.length (extra_mods r) = ac' - ac
  /\ extra_names r = map (fun p => autocxxgen_name exact (fst p) (snd p)) (combine (seq ac (ac' - ac)) (extra_mods r))
  /\ (forall m, In m (extra_mods r) -> ~ In m seen) /\ NoDup (extra_mods r).
Proof.
  induction l as [|[b|h cc] l IH]; intros seen cx ac r cx' ac' H; cbn [resolve] in H.
  - injection H as <- <- <-. rewrite !Nat.sub_diag. repeat split; auto. constructor.
  - destruct (smem (b_mod b) seen) eqn:M; [discriminate H|]. apply smem_nIn in M. destruct (b_parse_only b).
    + destruct (resolve exact (b_mod b :: seen) cx ac l) as [[[r1 cx1] ac1]|e] eqn:R; [|discriminate H]. injection H as <- <- <-.
      destruct (IH _ _ _ _ _ _ R) as (A & B & C & D & E & F & G & N).
      split; [constructor; [exact I|exact A]|]. split; [exact B|]. split; [exact C|]. split; [exact D|]. split; [exact E|]. split; [exact F|]. split; [|exact N].
      intros m J X. apply (G m J). right; exact X.
    + destruct (b_extra b) as [ex|] eqn:X.
      * destruct (resolve exact (b_mod b :: seen) (S cx) (S ac) l) as [[[r1 cx1] ac1]|e] eqn:R; [|discriminate H]. injection H as <- <- <-.
        destruct (IH _ _ _ _ _ _ R) as (A & B & C & D & E & F & G & N).
        split; [constructor; [cbn; rewrite X; split; discriminate|exact A]|]. split; [lia|]. split; [lia|].
        replace (cx1 - cx) with (S (cx1 - S cx)) by lia. replace (ac1 - ac) with (S (ac1 - S ac)) by lia.
        cbn [cxx_names extra_names extra_mods flat_map app]. fold (cxx_names r1) (extra_names r1) (extra_mods r1).
        cbn [seq map combine List.length fst snd]. rewrite D, F, E. split; [reflexivity|]. split; [reflexivity|]. split; [reflexivity|].
        split; [intros m [<-|I]; [exact M|intros Y; apply (G m I); right; exact Y]|].
        constructor; [|exact N]. intros I. apply (G _ I). left; reflexivity.
      * destruct (resolve exact (b_mod b :: seen) (S cx) ac l) as [[[r1 cx1] ac1]|e] eqn:R; [|discriminate H]. injection H as <- <- <-.
        destruct (IH _ _ _ _ _ _ R) as (A & B & C & D & E & F & G & N).
        split; [constructor; [cbn; rewrite X; tauto|exact A]|]. split; [lia|]. split; [lia|].
        replace (cx1 - cx) with (S (cx1 - S cx)) by lia.
        cbn [cxx_names extra_names extra_mods flat_map app]. fold (cxx_names r1) (extra_names r1) (extra_mods r1).
        cbn [seq map]. rewrite D. split; [reflexivity|]. split; [exact E|]. split; [exact F|]. split; [|exact N].
        intros m I Y. apply (G m I). right; exact Y.
  - destruct (resolve exact seen cx ac l) as [[[r1 cx1] ac1]|e] eqn:R; [|discriminate H]. injection H as <- <- <-.
    destruct (IH _ _ _ _ _ _ R) as (A & B & C & D & E & F & G & N). split; [constructor; [exact I|exact A]|]. auto 10.
Qed.

Lemma resolve_files_names exact : forall l cx ac r cx' ac', resolve_files exact cx ac l = Ok (r, cx', ac') ->
  Forall named_extra r
  /\ cx <= cx' /\ ac <= ac'
  /\ cxx_names r = map (cxxgen_name exact) (seq cx (cx' - cx))
  /\ List.length (extra_mods r) = ac' - ac
  /\ extra_names r = map (fun p => autocxxgen_name exact (fst p) (snd p)) (combine (seq ac (ac' - ac)) (extra_mods r)).
Proof.
  induction l as [|f l IH]; intros cx ac r cx' ac' H; cbn [resolve_files] in H.
  - injection H as <- <- <-. rewrite !Nat.sub_diag. repeat split; auto.
  - destruct (resolve exact [] cx ac f) as [[[r1 cx1] ac1]|e] eqn:R1; [|discriminate H].
    destruct (resolve_files exact cx1 ac1 l) as [[[r2 cx2] ac2]|e] eqn:R2; [|discriminate H]. injection H as <- <- <-.
    apply resolve_names in R1 as (A1 & B1 & C1 & D1 & E1 & F1 & _). destruct (IH _ _ _ _ _ R2) as (A2 & B2 & C2 & D2 & E2 & F2).
    split; [apply Forall_app; auto|]. split; [lia|]. split; [lia|].
    unfold cxx_names, extra_names, extra_mods in *. rewrite !flat_map_app. rewrite D1, D2, F1, F2, app_length, E1, E2.
    replace (cx2 - cx) with ((cx1 - cx) + (cx2 - cx1)) by lia. replace (ac2 - ac) with ((ac1 - ac) + (ac2 - ac1)) by lia.
    rewrite !seq_app, !map_app. replace (cx + (cx1 - cx)) with cx1 by lia. replace (ac + (ac1 - ac)) with ac1 by lia.
    split; [reflexivity|]. split; [reflexivity|].
    assert (CA : forall (a c : list nat) (b d : list string), List.length a = List.length b -> combine (a ++ c) (b ++ d) = (combine a b ++ combine c d)%list).
    { clear. induction a as [|x a IHa]; intros c [|y b] d L; try discriminate L; [reflexivity|]. cbn. f_equal. apply IHa. injection L as L; exact L. }
    rewrite CA by (rewrite seq_length; symmetry; exact E1). rewrite map_app. reflexivity.
Qed.

(** ** The whole plan *)

Definition cc_part (o : options) (n : nat) : list string :=
  map (name_cc_file (o_ext o)) (seq 0 (match o_exact o with Some k => k | None => n end)).
Definition cxx_part (o : options) (n : nat) : list string :=
  map (cxxgen_name (is_exact o)) (seq 0 (match o_exact o with Some k => k | None => n end)).
Definition extra_part (o : options) (mods : list string) : list string :=
  match o_exact o with
  | Some k => map name_autocxxgen_h (seq 0 k)
  | None => map default_autocxxgen_name mods
  end.
Definition rs_part (o : options) (rs : list (string * string)) : list string :=
  if o_fix_rs o then map name_include_rs (seq 0 (match o_exact o with Some k => k | None => List.length rs end))
  else map fst rs.

Lemma rs_steps_goes_on f c l : goes_on (rs_steps f c l).
Proof. revert c; induction l as [|[n x] l IH]; intros c e I; [exact I|]. destruct I as [I|I]; [discriminate I|exact (IH _ _ I)]. Qed.
Lemma rs_steps_names f c l :
  names (rs_steps f c l) = if f then map name_include_rs (seq c (List.length l)) else map fst l.
Proof.
  revert c; induction l as [|[n x] l IH]; intros c; [destruct f; reflexivity|].
  unfold names in *. cbn [rs_steps writes map fst List.length seq]. rewrite IH. destruct f; reflexivity.
Qed.

Lemma seq_join (f : nat -> string) a b : a <= b -> (map f (seq 0 a) ++ map f (seq a (b - a)))%list = map f (seq 0 b).
Proof. intros L. rewrite <- map_app. replace b with (a + (b - a)) at 2 by lia. rewrite seq_app. reflexivity. Qed.

(** What is written by a plan which does not stop: the source files, the cxx headers, the
    additional headers, [cxx.h], the Rust files, the archive. *)
Lemma plan_names o cxx_h archive files gs cx ac :
  resolve_files (is_exact o) 0 0 files = Ok (gs, cx, ac) -> goes_on (plan o cxx_h archive gs cx ac) ->
  exists ncc ncx,
    Permutation (names (plan o cxx_h archive gs cx ac))
      ((if o_gen_cpp o then cc_part o ncc ++ cxx_part o ncx ++ extra_part o (extra_mods gs) else [])
       ++ (if o_cxx_h o then ["cxx.h"] else [])
       ++ (if o_rs_include o then rs_part o (rs_outputs gs) else [])
       ++ (if o_archive o then ["gen.rs.json"] else []))%list
    /\ (o_rs_include o = true -> is_exact o = true -> o_fix_rs o = true).
Proof.
  intros R G. apply resolve_files_names in R as (NE & _ & _ & CX & LN & EX). rewrite Nat.sub_0_r in CX, LN, EX.
  unfold plan in *. apply goes_on_app in G as [G1 G]. apply goes_on_app in G as [G2 G]. apply goes_on_app in G as [G3 G4].
  rewrite (names_app _ _ G1), (names_app _ _ G2), (names_app _ _ G3).
  assert (P1 : exists ncc ncx, Permutation (names (if o_gen_cpp o then
      let '(st, r) := cpp_steps (is_exact o) (o_ext o) 0 cx gs in
      st ++ match r with
            | None => []
            | Some (counter, cx') =>
                placeholders counter (o_exact o) (name_cc_file (o_ext o))
                ++ placeholders cx' (o_exact o) name_cxxgen_h
                ++ placeholders ac (o_exact o) name_autocxxgen_h
            end
      else []))%list
      (if o_gen_cpp o then cc_part o ncc ++ cxx_part o ncx ++ extra_part o (extra_mods gs) else [])%list).
  { destruct (o_gen_cpp o); [|exists 0, 0; constructor].
    assert (CP := cpp_steps_pairs (is_exact o) (o_ext o) 0 cx gs).
    destruct (all_pairs (is_exact o) cx gs) as [[ps cx']|] eqn:AP.
    2: { destruct CP as (st & E & I). rewrite E in G1. destruct (G1 EPanic). apply in_or_app. auto. }
    rewrite CP in *. cbn [Nat.add] in *. clear CP. apply goes_on_app in G1 as [Ga Gb]. apply goes_on_app in Gb as [Gb Gc].
    apply goes_on_app in Gc as [Gc Gd].
    destruct (all_pairs_names _ _ _ _ _ NE AP) as [-> PH].
    exists (List.length ps), (cx + bridges gs).
    rewrite (names_app _ _ Ga), (names_app _ _ Gb), (names_app _ _ Gc).
    rewrite (placeholders_names _ _ _ Gb), (placeholders_names _ _ _ Gc), (placeholders_names _ _ _ Gd).
    apply placeholders_ok in Gb, Gc, Gd.
    eapply perm_trans; [apply Permutation_app_tail; eapply perm_trans; [apply pairs_names|apply Permutation_app_head, PH]|].
    unfold header_names_of. rewrite CX, EX. unfold cc_part, cxx_part, extra_part, is_exact in *.
    destruct (o_exact o) as [k|].
    - (* fixed number *)
      assert (XN : forall a l, List.length l = ac -> map (fun p : nat * string => autocxxgen_name true (fst p) (snd p)) (combine (seq a ac) l) = map name_autocxxgen_h (seq a ac)).
      { clear. intros a l <-. revert a. induction l as [|m l IH]; intros a; [reflexivity|]. cbn [List.length seq combine map fst snd]. rewrite IH. reflexivity. }
      rewrite (XN 0 _ LN). change name_cxxgen_h with (cxxgen_name true).
      rewrite <- (seq_join _ _ _ Gb), <- (seq_join _ _ _ Gc), <- (seq_join _ _ _ Gd).
      rewrite seq_app, map_app. cbn [Nat.add].
      set (a := map (name_cc_file (o_ext o)) _). set (b := map (name_cc_file (o_ext o)) _).
      set (c := map (cxxgen_name true) (seq 0 cx)). set (d := map (cxxgen_name true) (seq cx _)). set (e := map (cxxgen_name true) _).
      set (f := map name_autocxxgen_h _). set (g := map name_autocxxgen_h _).
      rewrite <- !app_assoc. apply Permutation_app_head.
      eapply perm_trans; [apply Permutation_app_head, Permutation_app_head, Permutation_app_swap_app|].
      eapply perm_trans; [apply Permutation_app_head, Permutation_app_swap_app|].
      eapply perm_trans; [apply Permutation_app_swap_app|].
      do 3 apply Permutation_app_head. apply Permutation_app_swap_app.
    - cbn [app]. rewrite !app_nil_r. apply Permutation_app_head.
      rewrite seq_app, map_app, <- !app_assoc. do 2 apply Permutation_app_head.
      assert (XN : forall a l, List.length l = ac -> map (fun p : nat * string => autocxxgen_name false (fst p) (snd p)) (combine (seq a ac) l) = map default_autocxxgen_name l).
      { clear. intros a l <-. revert a. induction l as [|m l IH]; intros a; [reflexivity|]. cbn [List.length seq combine map fst snd]. rewrite IH. reflexivity. }
      rewrite (XN 0 _ LN). apply Permutation_refl. }
  destruct P1 as (ncc & ncx & P1). exists ncc, ncx. split.
  - apply Permutation_app; [exact P1|]. apply Permutation_app; [destruct (o_cxx_h o); apply Permutation_refl|].
    apply Permutation_app; [|destruct (o_archive o); apply Permutation_refl].
    destruct (o_rs_include o); [|constructor]. destruct (negb (o_fix_rs o) && is_exact o) eqn:F.
    { destruct (G3 EFixName). left; reflexivity. }
    apply goes_on_app in G3 as [Ga Gb]. rewrite (names_app _ _ Ga), (placeholders_names _ _ _ Gb), rs_steps_names. apply placeholders_ok in Gb.
    unfold rs_part, is_exact in *. destruct (o_fix_rs o), (o_exact o) as [k|]; try discriminate F.
    + rewrite (seq_join _ _ _ Gb). apply Permutation_refl.
    + rewrite app_nil_r. apply Permutation_refl.
    + rewrite app_nil_r. apply Permutation_refl.
  - intros RI IE. rewrite RI in G3. destruct (o_fix_rs o); [reflexivity|]. rewrite IE in G3. destruct (G3 EFixName). left; reflexivity.
Qed.

(** A run which succeeds has carried out all the steps. *)
Lemma run_steps_all readable io relativize outdir l w w' :
  run_steps readable io relativize outdir l w = (w', None) -> goes_on l /\ l = all_writes (writes l).
Proof.
  revert w; induction l as [|[n c|e] l IH]; intros w H.
  - split; [intros e []|reflexivity].
  - cbn in H. destruct (write_to_file readable io relativize outdir n c w) as [w1 [e|]]; [discriminate H|].
    destruct (IH _ H) as [A B]. split.
    + intros e [I|I]; [discriminate I|exact (A e I)].
    + cbn. f_equal. exact B.
  - discriminate H.
Qed.

(** ** C40 for the tool *)

(** All the files which one run of the tool writes have different names, if the
    modules of all its input files do; with a fixed number of files, always,
    unless the extension for C++ files is one which the tool uses otherwise. *)
Theorem c40_tool_names_distinct :
  forall o cxx_h archive files gs cx ac,
    resolve_files (is_exact o) 0 0 files = Ok (gs, cx, ac) -> goes_on (plan o cxx_h archive gs cx ac) ->
    (if is_exact o then o_ext o <> "h" else NoDup (extra_mods gs)) ->
    (if o_fix_rs o then o_ext o <> "include.rs"
     else NoDup (map fst (rs_outputs gs)) /\ forall n, In n (map fst (rs_outputs gs)) -> starts_with "autocxx-" n = true) ->
    NoDup (names (plan o cxx_h archive gs cx ac)).
Proof.
  intros o cxx_h archive files gs cx ac R G HX HR.
  destruct (plan_names o cxx_h archive files gs cx ac R G) as (ncc & ncx & P & FX).
  eapply Permutation_NoDup; [apply Permutation_sym, P|]. clear P.
  set (cc := cc_part o ncc). set (cxx := cxx_part o ncx). set (ex := extra_part o (extra_mods gs)).
  set (rs := rs_part o (rs_outputs gs)).
  assert (Icc : forall n, In n cc -> exists i, n = name_cc_file (o_ext o) i).
  { intros n I. apply in_map_iff in I as (i & <- & _). eauto. }
  assert (Icx : forall n, In n cxx -> exists i, n = cxxgen_name (is_exact o) i).
  { intros n I. apply in_map_iff in I as (i & <- & _). eauto. }
  assert (Iex : forall n, In n ex -> if is_exact o then exists i, n = name_autocxxgen_h i else exists m, n = default_autocxxgen_name m).
  { intros n I. unfold ex, extra_part, is_exact in *. destruct (o_exact o); apply in_map_iff in I as (i & <- & _); eauto. }
  assert (Irs : forall n, In n rs -> if o_fix_rs o then exists i, n = name_include_rs i else starts_with "autocxx-" n = true).
  { intros n I. unfold rs, rs_part in *. destruct (o_fix_rs o); [apply in_map_iff in I as (i & <- & _); eauto|]. apply (proj2 HR), I. }
  assert (Ncc : NoDup cc) by (apply map_seq_nodup, cc_inj).
  assert (Ncx : NoDup cxx) by (apply map_seq_nodup, cxxgen_inj).
  assert (Nex : NoDup ex).
  { unfold ex, extra_part, is_exact in *. destruct (o_exact o) as [k|]; [apply map_seq_nodup, autocxxgen_h_inj|].
    apply FinFun.Injective_map_NoDup; [intros a b; apply default_autocxxgen_inj|exact HX]. }
  assert (Nrs : NoDup rs).
  { unfold rs, rs_part. destruct (o_fix_rs o); [apply map_seq_nodup, include_inj|apply HR]. }
  assert (D1 : forall n, In n cc -> ~ In n cxx).
  { intros n I J. destruct (Icc n I) as (i & ->). destruct (Icx _ J) as (j & E). unfold cxxgen_name, default_cxxgen_name in E.
    destruct (is_exact o); [|destruct (j =? 0); discriminate E].
    apply (numbered "gen" i j) in E as [_ E]. exact (HX E). }
  assert (D2 : forall n, In n cc -> ~ In n ex).
  { intros n I J. destruct (Icc n I) as (i & ->). apply Iex in J. destruct (is_exact o); destruct J as (j & E); discriminate E. }
  assert (D3 : forall n, In n cxx -> ~ In n ex).
  { intros n I J. destruct (Icx n I) as (i & ->). apply Iex in J. unfold cxxgen_name, default_cxxgen_name in J.
    destruct (is_exact o); [|destruct (i =? 0)]; destruct J as (j & E); discriminate E. }
  assert (D4 : forall n, In n (cc ++ cxx ++ ex)%list -> n <> "cxx.h" /\ n <> "gen.rs.json").
  { intros n I. apply in_app_iff in I as [I|I].
    - destruct (Icc n I) as (i & ->). split; [discriminate|]. unfold name_cc_file. intros E. injection E as E.
      assert (D := dec_digits i). destruct (dec i) as [|c s] eqn:X; [exact (dec_nonempty i X)|]. injection E as -> _. cbn in D. discriminate D.
    - apply in_app_iff in I as [I|I].
      + destruct (Icx n I) as (i & ->). unfold cxxgen_name, default_cxxgen_name, name_cxxgen_h. destruct (is_exact o).
        * split; [discriminate|]. intros E. injection E as E.
          assert (D := dec_digits i). destruct (dec i) as [|c s] eqn:X; [exact (dec_nonempty i X)|]. injection E as -> _. cbn in D. discriminate D.
        * destruct (i =? 0); split; discriminate.
      + apply Iex in I. destruct (is_exact o); destruct I as (j & ->); split; discriminate. }
  assert (D5 : forall n, In n rs -> n <> "cxx.h" /\ n <> "gen.rs.json").
  { intros n I. apply Irs in I. destruct (o_fix_rs o).
    - destruct I as (i & ->). split; [discriminate|]. unfold name_include_rs. intros E. injection E as E.
      assert (D := dec_digits i). destruct (dec i) as [|c s] eqn:X; [exact (dec_nonempty i X)|]. injection E as -> _. cbn in D. discriminate D.
    - split; intros ->; discriminate I. }
  assert (D6 : forall n, In n (cc ++ cxx ++ ex)%list -> ~ In n rs).
  { intros n I J. apply Irs in J. destruct (o_fix_rs o) eqn:FR.
    - destruct J as (j & ->). apply in_app_iff in I as [I|I].
      + destruct (Icc _ I) as (i & E). apply (numbered "gen" j i) in E as [_ E]. apply HR. symmetry; exact E.
      + apply in_app_iff in I as [I|I].
        * destruct (Icx _ I) as (i & E). unfold cxxgen_name, default_cxxgen_name in E.
          destruct (is_exact o); [|destruct (i =? 0); discriminate E].
          apply (numbered "gen" j i) in E as [_ E]. discriminate E.
        * apply Iex in I. destruct (is_exact o); destruct I as (i & E); discriminate E.
    - apply in_app_iff in I as [I|I].
      + destruct (Icc _ I) as (i & ->). discriminate J.
      + apply in_app_iff in I as [I|I].
        * destruct (Icx _ I) as (i & ->). unfold cxxgen_name, default_cxxgen_name in J. destruct (is_exact o); [discriminate J|destruct (i =? 0); discriminate J].
        * apply Iex in I. destruct (is_exact o); destruct I as (i & ->); discriminate J. }
  assert (N1 : NoDup (if o_gen_cpp o then cc ++ cxx ++ ex else [])%list).
  { destruct (o_gen_cpp o); [|constructor]. apply NoDup_app_intro; [exact Ncc| |].
    - apply NoDup_app_intro; [exact Ncx|exact Nex|exact D3].
    - intros n I J. apply in_app_iff in J as [J|J]; [exact (D1 n I J)|exact (D2 n I J)]. }
  apply NoDup_app_intro; [exact N1| |].
  - apply NoDup_app_intro.
    + destruct (o_cxx_h o); [repeat constructor; intros []|constructor].
    + apply NoDup_app_intro.
      * destruct (o_rs_include o); [exact Nrs|constructor].
      * destruct (o_archive o); [repeat constructor; intros []|constructor].
      * intros n I J. destruct (o_rs_include o); [|exact I]. destruct (o_archive o); [|exact J]. destruct J as [<-|[]].
        destruct (proj2 (D5 _ I) eq_refl).
    + intros n I J. destruct (o_cxx_h o); [|exact I]. destruct I as [<-|[]]. apply in_app_iff in J as [J|J].
      * destruct (o_rs_include o); [|exact J]. destruct (proj1 (D5 _ J) eq_refl).
      * destruct (o_archive o); [|exact J]. destruct J as [E|[]]. discriminate E.
  - intros n I J. destruct (o_gen_cpp o); [|exact I]. apply in_app_iff in J as [J|J].
    + destruct (o_cxx_h o); [|exact J]. destruct J as [<-|[]]. destruct (proj1 (D4 _ I) eq_refl).
    + apply in_app_iff in J as [J|J].
      * destruct (o_rs_include o); [|exact J]. exact (D6 n I J).
      * destruct (o_archive o); [|exact J]. destruct J as [<-|[]]. destruct (proj2 (D4 _ I) eq_refl).
Qed.
Print Assumptions c40_tool_names_distinct.

(** ** C33 *)

(** A successful run with a fixed number N leaves source files 0 to N-1,
    headers 0 to N-1 of both kinds and, if asked for, Rust files 0 to N-1, and no
    other files of these kinds than were there before. *)
Theorem c33_exactly_n :
  forall io relativize outdir o n cxx_h archive files d dep w,
    tool (fun _ => true) io relativize outdir o cxx_h archive files d dep = (w, None) ->
    o_exact o = Some n -> o_gen_cpp o = true -> o_ext o <> "h" -> o_ext o <> "include.rs" ->
    let there name i := held (w_fs w) (pjoin outdir (name i)) <> None in
    let before name i := held d (pjoin outdir (name i)) <> None in
    (forall i, there (name_cc_file (o_ext o)) i <-> i < n \/ before (name_cc_file (o_ext o)) i)
    /\ (forall i, there name_cxxgen_h i <-> i < n \/ before name_cxxgen_h i)
    /\ (forall i, there name_autocxxgen_h i <-> i < n \/ before name_autocxxgen_h i)
    /\ (o_rs_include o = true -> forall i, there name_include_rs i <-> i < n \/ before name_include_rs i).
Proof.
  intros io relativize outdir o n cxx_h archive files d dep w T EX GC HE HI there before.
  unfold tool in T. destruct (resolve_files (is_exact o) 0 0 files) as [[[gs cx] ac]|e] eqn:R; [|discriminate T].
  destruct (run_steps_all _ _ _ _ _ _ _ T) as [G E].
  destruct (plan_names o cxx_h archive files gs cx ac R G) as (ncc & ncx & P & FX).
  rewrite E in T. apply c36_last_content in T as [A B].
  assert (M : forall x, held (w_fs w) (pjoin outdir x) <> None <-> In x (names (plan o cxx_h archive gs cx ac)) \/ held d (pjoin outdir x) <> None).
  { intros x. unfold names. destruct (in_dec string_dec x (map fst (writes (plan o cxx_h archive gs cx ac)))) as [I|I].
    - split; [auto|]. intros _. apply in_map_iff in I as ([k c] & K & I). cbn in K; subst k.
      destruct (A x c I) as (b & y & _ & ->). discriminate.
    - assert (S : held (w_fs w) (pjoin outdir x) = held d (pjoin outdir x)).
      { unfold held. rewrite B; [reflexivity|]. intros k c J X. apply pjoin_inj in X. subst k. apply I, in_map_iff. exists (x, c). auto. }
      rewrite S. tauto. }
  assert (IE : is_exact o = true) by (unfold is_exact; rewrite EX; reflexivity).
  assert (K : forall x, In x (names (plan o cxx_h archive gs cx ac)) <->
    In x (map (name_cc_file (o_ext o)) (seq 0 n)) \/ In x (map name_cxxgen_h (seq 0 n)) \/ In x (map name_autocxxgen_h (seq 0 n))
    \/ In x (if o_cxx_h o then ["cxx.h"] else []) \/ In x (if o_rs_include o then map name_include_rs (seq 0 n) else [])
    \/ In x (if o_archive o then ["gen.rs.json"] else [])).
  { intros x. rewrite GC in P. unfold cc_part, cxx_part, extra_part, rs_part in P. rewrite EX, IE in P.
    change (cxxgen_name true) with name_cxxgen_h in P.
    assert (RS : (if o_rs_include o then if o_fix_rs o then map name_include_rs (seq 0 n) else map fst (rs_outputs gs) else [])
               = (if o_rs_include o then map name_include_rs (seq 0 n) else [])).
    { destruct (o_rs_include o); [|reflexivity]. rewrite (FX eq_refl IE). reflexivity. }
    rewrite RS in P. split.
    - intros I. apply (Permutation_in _ P) in I. rewrite !in_app_iff in I. tauto.
    - intros I. apply (Permutation_in _ (Permutation_sym P)). rewrite !in_app_iff. tauto. }
  assert (SQ : forall (f : nat -> string) i, (forall a b, f a = f b -> a = b) -> In (f i) (map f (seq 0 n)) <-> i < n).
  { intros f i I. rewrite in_map_iff. split.
    - intros (j & Ej & J). apply I in Ej; subst. apply in_seq in J. lia.
    - intros L. exists i. split; [reflexivity|]. apply in_seq. lia. }
  assert (GJ : forall i t, "gen" +++ dec i +++ t <> "gen.rs.json").
  { intros i t X. injection X as X. assert (D := dec_digits i). destruct (dec i) as [|c s] eqn:Y; [exact (dec_nonempty i Y)|].
    injection X as -> _. cbn in D. discriminate D. }
  assert (C1 : forall x, x <> "cxx.h" -> In x (if o_cxx_h o then ["cxx.h"] else []) -> False).
  { intros x N I. destruct (o_cxx_h o); [|exact I]. destruct I as [I|[]]. congruence. }
  assert (C2 : forall x, x <> "gen.rs.json" -> In x (if o_archive o then ["gen.rs.json"] else []) -> False).
  { intros x N I. destruct (o_archive o); [|exact I]. destruct I as [I|[]]. congruence. }
  assert (C3 : forall x, (forall j, x <> name_include_rs j) -> In x (if o_rs_include o then map name_include_rs (seq 0 n) else []) -> False).
  { intros x N I. destruct (o_rs_include o); [|exact I]. apply in_map_iff in I as (j & X & _). exact (N j (eq_sym X)). }
  unfold there, before. repeat split.
  - rewrite M, K. intros [[I|[I|[I|[I|[I|I]]]]]|I]; auto.
    + left. apply (SQ _ i (cc_inj (o_ext o))), I.
    + apply in_map_iff in I as (j & X & _). apply (numbered "gen" j i) in X as [_ X]. destruct HE; symmetry; exact X.
    + apply in_map_iff in I as (j & X & _). discriminate X.
    + exfalso; revert I; apply C1; discriminate.
    + exfalso; revert I; apply C3; intros j X; apply (numbered "gen" i j) in X as [_ X]; exact (HI X).
    + exfalso; revert I; apply C2, GJ.
  - rewrite M, K. intros [I|I]; [|auto]. left; left. apply (SQ _ i (cc_inj (o_ext o))), I.
  - rewrite M, K. intros [[I|[I|[I|[I|[I|I]]]]]|I]; auto.
    + apply in_map_iff in I as (j & X & _). apply (numbered "gen" j i) in X as [_ X]. destruct (HE X).
    + left. apply (SQ _ i cxxgen_h_inj), I.
    + apply in_map_iff in I as (j & X & _). discriminate X.
    + exfalso; revert I; apply C1; discriminate.
    + exfalso; revert I; apply C3; intros j X; apply (numbered "gen" i j) in X as [_ X]; discriminate X.
    + exfalso; revert I; apply C2, GJ.
  - rewrite M, K. intros [I|I]; [|auto]. left; right; left. apply (SQ _ i cxxgen_h_inj), I.
  - rewrite M, K. intros [[I|[I|[I|[I|[I|I]]]]]|I]; auto.
    + apply in_map_iff in I as (j & X & _). discriminate X.
    + apply in_map_iff in I as (j & X & _). discriminate X.
    + left. apply (SQ _ i autocxxgen_h_inj), I.
    + exfalso; revert I; apply C1; discriminate.
    + exfalso; revert I; apply C3; intros j X; discriminate X.
    + exfalso; revert I; apply C2; discriminate.
  - rewrite M, K. intros [I|I]; [|auto]. left; right; right; left. apply (SQ _ i autocxxgen_h_inj), I.
  - intros J. apply M in J as [J|J]; [|auto]. apply K in J as [I|[I|[I|[I|[I|I]]]]].
    + apply in_map_iff in I as (j & X & _). apply (numbered "gen" j i) in X as [_ X]. destruct (HI X).
    + apply in_map_iff in I as (j & X & _). apply (numbered "gen" j i) in X as [_ X]. discriminate X.
    + apply in_map_iff in I as (j & X & _). discriminate X.
    + exfalso; revert I; apply C1; discriminate.
    + rewrite H in I. left. apply (SQ _ i include_inj), I.
    + exfalso; revert I; apply C2, GJ.
  - intros [I|I]; apply M; [left|auto]. apply K. right; right; right; right; left. rewrite H. apply (SQ _ i include_inj), I.
Qed.
Print Assumptions c33_exactly_n.
