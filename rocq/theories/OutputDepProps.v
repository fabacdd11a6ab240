(** Runs with a fixed number of files succeed exactly if there is room (C33);
    dependency files can be read back (C34). *)
From Verif Require Import Base OutputModel OutputProps OutputNamesProps.
Local Open Scope list_scope.

(** ** C33: too many files *)

(** The number of pairs of header and source which an input needs. *)
Definition pairs_needed (b : buildable) : nat :=
  match b with
  | BBridge _ _ => 1
  | BAuto b => if b_parse_only b then 0 else match b_extra b with Some _ => 2 | None => 1 end
  end.
Definition rs_needed (b : buildable) : nat := match b with BBridge _ _ => 0 | BAuto _ => 1 end.
Definition total (f : buildable -> nat) (files : list (list buildable)) : nat :=
  list_sum (map f (concat files)).

Definition pairs_given (g : generated) : nat :=
  match g with
  | GBridge _ _ => 1
  | GAuto b None => 0
  | GAuto b (Some _) => match b_extra b with Some _ => 2 | None => 1 end
  end.
Definition rs_given (g : generated) : nat := match g with GBridge _ _ => 0 | GAuto _ _ => 1 end.

Lemma sum_cons a l : list_sum (a :: l) = a + list_sum l.
Proof. reflexivity. Qed.

Lemma resolve_totals exact : forall l seen cx ac r cx' ac', resolve exact seen cx ac l = Ok (r, cx', ac') ->
  list_sum (map pairs_given r) = list_sum (map pairs_needed l)
  /\ list_sum (map rs_given r) = list_sum (map rs_needed l)
  /\ ((forall b, In (BAuto b) l -> b_parse_only b = false) -> forall b x, In (GAuto b x) r -> x <> None).
Proof.
  induction l as [|[b|h cc] l IH]; intros seen cx ac r cx' ac' H; cbn [resolve] in H.
  - injection H as <- <- <-. split; [reflexivity|]. split; [reflexivity|]. intros _ b x [].
  - destruct (smem (b_mod b) seen); [discriminate H|]. destruct (b_parse_only b) eqn:PO.
    + destruct (resolve exact (b_mod b :: seen) cx ac l) as [[[r1 cx1] ac1]|e] eqn:R; [|discriminate H]. injection H as <- <- <-.
      destruct (IH _ _ _ _ _ _ R) as (A & B & C). cbn [map]. rewrite !sum_cons. cbn [pairs_given pairs_needed rs_given rs_needed]. rewrite PO. split; [lia|]. split; [lia|].
      intros F. rewrite (F b (or_introl eq_refl)) in PO. discriminate PO.
    + match type of H with context [resolve exact ?s ?c ?a l] => destruct (resolve exact s c a l) as [[[r1 cx1] ac1]|e] eqn:R end; [|discriminate H].
      injection H as <- <- <-.
      destruct (IH _ _ _ _ _ _ R) as (A & B & C). cbn [map]. rewrite !sum_cons. cbn [pairs_given pairs_needed rs_given rs_needed]. rewrite PO. split; [|split; [lia|]].
      * destruct (b_extra b); lia.
      * intros F b' x [I|I]; [injection I as <- <-; discriminate|]. apply (C ltac:(intros c J; apply F; right; exact J) b' x I).
  - destruct (resolve exact seen cx ac l) as [[[r1 cx1] ac1]|e] eqn:R; [|discriminate H]. injection H as <- <- <-.
    destruct (IH _ _ _ _ _ _ R) as (A & B & C). cbn [map]. rewrite !sum_cons. cbn [pairs_given pairs_needed rs_given rs_needed]. split; [lia|]. split; [lia|].
    intros F b x [I|I]; [discriminate I|]. apply (C ltac:(intros c J; apply F; right; exact J) b x I).
Qed.
Lemma list_sum_app a b : list_sum (a ++ b) = list_sum a + list_sum b.
Proof. induction a as [|x a IH]; [reflexivity|]. cbn [app]. rewrite !sum_cons, IH. lia. Qed.

Lemma resolve_files_totals exact : forall l cx ac r cx' ac', resolve_files exact cx ac l = Ok (r, cx', ac') ->
  list_sum (map pairs_given r) = total pairs_needed l
  /\ list_sum (map rs_given r) = total rs_needed l
  /\ ((forall f b, In f l -> In (BAuto b) f -> b_parse_only b = false) -> forall b x, In (GAuto b x) r -> x <> None).
Proof.
  induction l as [|f l IH]; intros cx ac r cx' ac' H; cbn [resolve_files] in H.
  - injection H as <- <- <-. split; [reflexivity|]. split; [reflexivity|]. intros _ b x [].
  - destruct (resolve exact [] cx ac f) as [[[r1 cx1] ac1]|e] eqn:R1; [|discriminate H].
    destruct (resolve_files exact cx1 ac1 l) as [[[r2 cx2] ac2]|e] eqn:R2; [|discriminate H]. injection H as <- <- <-.
    apply resolve_totals in R1 as (A1 & B1 & C1). destruct (IH _ _ _ _ _ R2) as (A2 & B2 & C2).
    unfold total in *. cbn [concat]. rewrite !map_app, !list_sum_app. split; [congruence|]. split; [congruence|].
    intros F b x I. apply in_app_iff in I as [I|I].
    + apply (C1 ltac:(intros c J; apply (F f c); [left; reflexivity|exact J]) b x I).
    + apply (C2 ltac:(intros f' c J K; apply (F f' c); [right; exact J|exact K]) b x I).
Qed.

Lemma rs_outputs_length gs : List.length (rs_outputs gs) = list_sum (map rs_given gs).
Proof.
  induction gs as [|g gs IH]; [reflexivity|]. unfold rs_outputs in *. cbn [flat_map map]. rewrite sum_cons, app_length, IH.
  destruct g as [b [x|]|]; reflexivity.
Qed.

(** The pairs are counted right, and there are enough names. *)
Lemma all_pairs_count exact l : forall cx, Forall named_extra l -> (forall b x, In (GAuto b x) l -> x <> None) ->
  exists ps, all_pairs exact cx l = Some (ps, cx + bridges l) /\ List.length ps = list_sum (map pairs_given l).
Proof.
  induction l as [|g l IH]; intros cx F N.
  - exists []. cbn. rewrite Nat.add_0_r. auto.
  - apply Forall_cons_iff in F as [Fg F].
    destruct (IH (match g with GBridge _ _ => S cx | _ => cx end) F ltac:(intros b x I; apply (N b x); right; exact I)) as (qs & E & L).
    cbn [all_pairs]. destruct g as [b [[n x]|]|h cc]; cbn [pairs_of].
    + rewrite E. eexists. split; [reflexivity|]. rewrite app_length, L. cbn [map]. rewrite sum_cons. cbn [pairs_given]. cbn in Fg.
      destruct x, (b_extra b) as [[]|]; cbn; try reflexivity.
      * discriminate (proj1 Fg eq_refl).
    + destruct (N b None (or_introl eq_refl) eq_refl).
    + rewrite E. unfold bridges. cbn [filter List.length]. fold (bridges l). rewrite Nat.add_succ_r.
      eexists. split; [reflexivity|]. rewrite app_length, L. cbn [map]. rewrite sum_cons. reflexivity.
Qed.

Lemma all_pairs_some exact l cx ps cx' : all_pairs exact cx l = Some (ps, cx') -> forall b x, In (GAuto b x) l -> x <> None.
Proof.
  revert cx ps cx'; induction l as [|g l IH]; intros cx ps cx' H b x I; [destruct I|]. cbn [all_pairs] in H.
  destruct (pairs_of exact cx g) as [[p1 c1]|] eqn:P; [|discriminate H]. destruct (all_pairs exact c1 l) as [[qs c2]|] eqn:A; [|discriminate H].
  destruct I as [->|I]; [|exact (IH _ _ _ A b x I)]. destruct x; [discriminate|discriminate P].
Qed.

(** C33, too many: a run which succeeds needed at most N of each. *)
Theorem c33_too_many_fails :
  forall readable io relativize outdir o n cxx_h archive files d dep,
    o_exact o = Some n ->
    (o_gen_cpp o = true /\ n < total pairs_needed files) \/ (o_rs_include o = true /\ n < total rs_needed files) ->
    snd (tool readable io relativize outdir o cxx_h archive files d dep) <> None.
Proof.
  intros readable io relativize outdir o n cxx_h archive files d dep EX M T.
  destruct (tool readable io relativize outdir o cxx_h archive files d dep) as [w e] eqn:T'. cbn in T; subst e. rename T' into T.
  unfold tool in T. destruct (resolve_files (is_exact o) 0 0 files) as [[[gs cx] ac]|e] eqn:R; [|discriminate T].
  destruct (run_steps_all _ _ _ _ _ _ _ T) as [G _]. clear T.
  destruct (resolve_files_totals _ _ _ _ _ _ _ R) as (TP & TR & _). apply resolve_files_names in R as (NE & _).
  unfold plan in G. apply goes_on_app in G as [G1 G]. apply goes_on_app in G as [_ G]. apply goes_on_app in G as [G3 _].
  destruct M as [[GC M]|[RI M]].
  - rewrite GC in G1. assert (CP := cpp_steps_pairs (is_exact o) (o_ext o) 0 cx gs).
    destruct (all_pairs (is_exact o) cx gs) as [[ps cx']|] eqn:AP.
    2: { destruct CP as (st & E & I). rewrite E in G1. destruct (G1 EPanic). apply in_or_app. auto. }
    rewrite CP in G1. apply goes_on_app in G1 as [_ G1]. apply goes_on_app in G1 as [G1 _]. apply placeholders_ok in G1. rewrite EX in G1.
    destruct (all_pairs_count (is_exact o) gs cx NE (all_pairs_some _ _ _ _ _ AP)) as (ps' & AP' & L). rewrite AP in AP'. injection AP' as <- _.
    lia.
  - rewrite RI in G3. destruct (negb (o_fix_rs o) && is_exact o); [destruct (G3 EFixName); left; reflexivity|].
    apply goes_on_app in G3 as [_ G3]. apply placeholders_ok in G3. rewrite EX, rs_outputs_length in G3. lia.
Qed.
Print Assumptions c33_too_many_fails.

Lemma placeholders_fit counter n name : counter <= n -> goes_on (placeholders counter (Some n) name).
Proof.
  intros L e I. unfold placeholders in I. destruct (Nat.ltb_spec n counter); [lia|]. apply in_map_iff in I as (i & X & _). discriminate X.
Qed.
Lemma goes_on_writes l : goes_on l -> l = all_writes (writes l).
Proof.
  induction l as [|[n c|e] l IH]; intros G; [reflexivity| |destruct (G e); left; reflexivity].
  cbn. f_equal. apply IH. intros e I. apply (G e). right; exact I.
Qed.
Lemma distinct_consistent l : NoDup (map fst l) -> consistent l.
Proof.
  induction l as [|[n c] l IH]; intros N m x y I J; [destruct I|]. cbn in N. apply NoDup_cons_iff in N as [NI N].
  destruct I as [I|I], J as [J|J].
  - congruence.
  - injection I as <- <-. destruct NI. apply in_map_iff. exists (n, y). auto.
  - injection J as <- <-. destruct NI. apply in_map_iff. exists (n, x). auto.
  - exact (IH N m x y I J).
Qed.

(** And if there is room for all, the run succeeds, whatever is in the
    directory. *)
Theorem c33_room_succeeds :
  forall io relativize outdir o n cxx_h archive files r d dep,
    resolve_files true 0 0 files = Ok r ->
    o_exact o = Some n -> total pairs_needed files <= n -> (o_rs_include o = true -> total rs_needed files <= n /\ o_fix_rs o = true) ->
    (forall f b, In f files -> In (BAuto b) f -> b_parse_only b = false) ->
    o_ext o <> "h" -> o_ext o <> "include.rs" ->
    (forall p, io p = IoOk) -> (dep = None \/ forall p, relativize p <> None) ->
    snd (tool (fun _ => true) io relativize outdir o cxx_h archive files d dep) = None.
Proof.
  intros io relativize outdir o n cxx_h archive files [[gs cx] ac] d dep R EX LP LR PO HH HI IO NP.
  assert (IE : is_exact o = true) by (unfold is_exact; rewrite EX; reflexivity).
  destruct (resolve_files_totals _ _ _ _ _ _ _ R) as (TP & TR & NN). specialize (NN PO).
  destruct (resolve_files_names _ _ _ _ _ _ _ R) as (NE & _ & _ & CX & LN & EXN). rewrite Nat.sub_0_r in *.
  destruct (all_pairs_count true gs cx NE NN) as (ps & AP & L).
  destruct (all_pairs_names _ _ _ _ _ NE AP) as [_ PH]. apply Permutation_length in PH.
  unfold header_names_of in PH. rewrite CX, EXN in PH. rewrite map_length, !app_length, !map_length, combine_length, !seq_length, LN, Nat.min_id in PH.
  assert (G : goes_on (plan o cxx_h archive gs cx ac)).
  { unfold plan. rewrite IE, EX. assert (CP := cpp_steps_pairs true (o_ext o) 0 cx gs). rewrite AP in CP. rewrite CP. clear CP.
    apply goes_on_app. split.
    - destruct (o_gen_cpp o); [|intros e []]. apply goes_on_app. split; [apply pairs_steps_goes_on|]. cbn [Nat.add].
      apply goes_on_app. split; [apply placeholders_fit; lia|]. apply goes_on_app. split; apply placeholders_fit; lia.
    - apply goes_on_app. split; [destruct (o_cxx_h o); [intros e [I|[]]; discriminate I|intros e []]|].
      apply goes_on_app. split; [|destruct (o_archive o); [intros e [I|[]]; discriminate I|intros e []]].
      destruct (o_rs_include o); [|intros e []]. destruct (LR eq_refl) as [LR' ->]. cbn [negb andb].
      apply goes_on_app. split; [apply rs_steps_goes_on|]. apply placeholders_fit. rewrite rs_outputs_length. lia. }
  unfold tool. rewrite IE, R. rewrite (goes_on_writes _ G). apply c32_identical_accepted; [exact IO|exact NP|].
  destruct (o_rs_include o) eqn:RI.
  - apply distinct_consistent. apply (c40_tool_names_distinct o cxx_h archive files gs cx ac); [rewrite IE; exact R|exact G|rewrite IE; exact HH|].
    rewrite (proj2 (LR eq_refl)). exact HI.
  - (* without Rust files, how they would be named does not matter *)
    set (o' := Options (o_gen_cpp o) (o_ext o) (o_exact o) (o_cxx_h o) (o_rs_include o) true (o_archive o)).
    assert (PE : plan o cxx_h archive gs cx ac = plan o' cxx_h archive gs cx ac).
    { unfold plan, o'. cbn. rewrite RI. reflexivity. }
    rewrite PE in *. apply distinct_consistent.
    apply (c40_tool_names_distinct o' cxx_h archive files gs cx ac); [change (is_exact o') with (is_exact o); rewrite IE; exact R|exact G|change (is_exact o') with (is_exact o); rewrite IE; exact HH|exact HI].
Qed.
Print Assumptions c33_room_succeeds.

(** Two files with a block each, one with an additional header, and a bridge. *)
Definition demo_files : list (list buildable) :=
  [[BAuto (Block "ffi" false "h0" "c0" (Some ("x0", Some "xc0")) "autocxx-ffi-gen.rs" "rs0")];
   [BAuto (Block "ffi2" false "h1" "c1" None "autocxx-ffi2-gen.rs" "rs1"); BBridge "bh" "bc"]].
Definition demo_opts (n : nat) : options := Options true "cc" (Some n) true true true true.
Example c33_case :
  snd (tool (fun _ => true) (fun _ => IoOk) (fun p => Some p) "out" (demo_opts 5) "cxx" "{}" demo_files (FS [] 0) None) = None
  /\ map fst (fs_files (w_fs (fst (tool (fun _ => true) (fun _ => IoOk) (fun p => Some p) "out" (demo_opts 5) "cxx" "{}" demo_files (FS [] 0) None))))
     = map (fun n => "out/" +++ n)
         ["gen0.cc"; "gen0.h"; "gen1.cc"; "autocxxgen0.h"; "gen2.cc"; "gen1.h"; "gen3.cc"; "gen2.h"; "gen4.cc"; "gen3.h"; "gen4.h";
          "autocxxgen1.h"; "autocxxgen2.h"; "autocxxgen3.h"; "autocxxgen4.h"; "cxx.h";
          "gen0.include.rs"; "gen1.include.rs"; "gen2.include.rs"; "gen3.include.rs"; "gen4.include.rs"; "gen.rs.json"]
  /\ snd (tool (fun _ => true) (fun _ => IoOk) (fun p => Some p) "out" (demo_opts 3) "cxx" "{}" demo_files (FS [] 0) None) = Some (ETooMany 4).
Proof. vm_compute. auto. Qed.

(** If the extension is "h", sources and headers collide. *)
Theorem c33_extension_h_refuted :
  exists o files, o_exact o = Some 5 /\ total pairs_needed files <= 5 /\ total rs_needed files <= 5
    /\ snd (tool (fun _ => true) (fun _ => IoOk) (fun p => Some p) "out" o "cxx" "{}" files (FS [] 0) None) = Some (ETwoFiles "gen0.h").
Proof.
  exists (Options true "h" (Some 5) true true true true), demo_files.
  split; [reflexivity|]. split; [cbn; lia|]. split; [cbn; lia|]. vm_compute. reflexivity.
Qed.
Print Assumptions c33_extension_h_refuted.

(** ** C34 *)

(** A reader of rules as [make] has them: a backslash at the end of a line
    continues it, a rule is a target, a colon and the prerequisites, words are
    separated by blanks, empty lines do not count. *)
Definition nl : ascii := Ascii.ascii_of_nat 10.
Definition bs : ascii := Ascii.ascii_of_nat 92.
Definition tab : ascii := Ascii.ascii_of_nat 9.
Definition is_nl (c : ascii) : bool := Ascii.eqb c nl.
Definition is_colon (c : ascii) : bool := Ascii.eqb c ":".
Definition is_blank (c : ascii) : bool := Ascii.eqb c " " || Ascii.eqb c tab.

Fixpoint continued (s : string) : string :=
  match s with
  | "" => ""
  | String c r =>
      match r with
      | String d r' => if Ascii.eqb c bs && Ascii.eqb d nl then String " " (continued r') else String c (continued r)
      | "" => s
      end
  end%string.
Fixpoint split_on (p : ascii -> bool) (s : string) : list string :=
  match s with
  | "" => [""]
  | String c r =>
      if p c then "" :: split_on p r
      else match split_on p r with h :: t => String c h :: t | [] => [String c ""] end
  end%string.
Definition words (s : string) : list string := filter (fun w => negb (String.eqb w "")) (split_on is_blank s).
Definition read_rule (l : string) : list (string * list string) :=
  match split_on is_colon l with
  | t :: r :: [] => match words t with [w] => [(w, words r)] | _ => [("?", [])] end
  | [l'] => match words l' with [] => [] | _ => [("?", [])] end
  | _ => [("?", [])]
  end%string.
Definition read_rules (s : string) : list (string * list string) := flat_map read_rule (split_on is_nl (continued s)).

(** Names which a makefile can hold as they are. *)
Definition plain_char (c : ascii) : bool := negb (is_nl c || is_blank c || is_colon c || Ascii.eqb c bs).
Definition plain (s : string) : Prop := all_chars plain_char s = true /\ s <> "".

Lemma all_chars_impl (p q : ascii -> bool) s : (forall c, p c = true -> q c = true) -> all_chars p s = true -> all_chars q s = true.
Proof. intros I. induction s as [|c s IH]; [auto|]. cbn. intros H. apply andb_prop in H as [A B]. rewrite (I c A), (IH B). reflexivity. Qed.

Lemma split_end p a : all_chars (fun c => negb (p c)) a = true -> split_on p a = [a].
Proof.
  induction a as [|c a IH]; intros H; [reflexivity|]. cbn in *. apply andb_prop in H as [A B]. destruct (p c); [discriminate A|].
  rewrite (IH B). reflexivity.
Qed.
Lemma split_cons p a c b : all_chars (fun c => negb (p c)) a = true -> p c = true -> split_on p (a +++ String c b) = a :: split_on p b.
Proof.
  intros H C. induction a as [|d a IH]; cbn in *; [rewrite C; reflexivity|]. apply andb_prop in H as [A B].
  destruct (p d); [discriminate A|]. rewrite (IH B). reflexivity.
Qed.
Lemma continued_app a b : all_chars (fun c => negb (Ascii.eqb c bs)) a = true -> continued (a +++ b) = a +++ continued b.
Proof.
  induction a as [|c a IH]; intros H; [reflexivity|]. cbn [all_chars] in H. apply andb_prop in H as [A B]. specialize (IH B).
  change (String c a +++ b) with (String c (a +++ b)). change (String c a +++ continued b) with (String c (a +++ continued b)).
  rewrite <- IH. cbn [continued]. destruct (a +++ b) as [|d r]; [reflexivity|]. destruct (Ascii.eqb c bs); [discriminate A|]. reflexivity.
Qed.
Lemma continued_sep b : continued (dep_separator +++ b) = "    " +++ continued b.
Proof.
  change (dep_separator +++ b) with (" " +++ String bs (String nl ("  " +++ b))). rewrite continued_app by reflexivity.
  assert (E : forall r, continued (String bs (String nl r)) = String " " (continued r)) by reflexivity.
  rewrite E, continued_app by reflexivity. reflexivity.
Qed.

Lemma plain_not p s : (forall c, plain_char c = true -> p c = false) -> plain s -> all_chars (fun c => negb (p c)) s = true.
Proof. intros I [P _]. revert P. apply all_chars_impl. intros c H. rewrite (I c H). reflexivity. Qed.
Lemma plain_facts c : plain_char c = true -> is_nl c = false /\ is_blank c = false /\ is_colon c = false /\ Ascii.eqb c bs = false.
Proof. unfold plain_char. destruct (is_nl c), (is_blank c), (is_colon c), (Ascii.eqb c bs); cbn; auto; discriminate. Qed.

Lemma join_cons2 sep x y l : join sep (x :: y :: l) = x +++ sep +++ join sep (y :: l).
Proof. reflexivity. Qed.

Definition loose (deps : list string) : string := join "    " deps.
Lemma continued_join deps b : Forall plain deps -> continued (join dep_separator deps +++ b) = loose deps +++ continued b.
Proof.
  unfold loose. intros F. induction deps as [|x deps IH]; [reflexivity|]. apply Forall_cons_iff in F as [P F].
  assert (PB : all_chars (fun c => negb (Ascii.eqb c bs)) x = true) by (apply plain_not; [intros c H; apply plain_facts, H|exact P]).
  destruct deps as [|y deps].
  - apply continued_app, PB.
  - rewrite !join_cons2. rewrite !sapp_assoc. rewrite continued_app by exact PB. f_equal. rewrite continued_sep. f_equal. apply IH, F.
Qed.
Lemma words_skip b : words (" " +++ b) = words b.
Proof. reflexivity. Qed.
Lemma words_cons a b : plain a -> words (a +++ " " +++ b) = a :: words b.
Proof.
  intros P. unfold words. change (" " +++ b) with (String " " b). rewrite split_cons; [|apply plain_not; [intros c H; apply plain_facts, H|exact P]|reflexivity].
  cbn [filter]. destruct (String.eqb_spec a "") as [E|E]; [destruct P as [_ P]; congruence|reflexivity].
Qed.
Lemma words_one a : plain a -> words a = [a].
Proof.
  intros P. unfold words. rewrite split_end; [|apply plain_not; [intros c H; apply plain_facts, H|exact P]].
  cbn [filter]. destruct (String.eqb_spec a "") as [E|E]; [destruct P as [_ P]; congruence|reflexivity].
Qed.
Lemma words_loose deps : Forall plain deps -> words (loose deps) = deps.
Proof.
  unfold loose. induction deps as [|x deps IH]; intros F; [reflexivity|]. apply Forall_cons_iff in F as [P F].
  destruct deps as [|y deps]; [apply words_one, P|]. rewrite join_cons2.
  change ("    " +++ join "    " (y :: deps)) with (" " +++ " " +++ " " +++ " " +++ join "    " (y :: deps)).
  rewrite words_cons by exact P. rewrite !words_skip, IH by exact F. reflexivity.
Qed.
Lemma loose_no deps p : Forall plain deps -> p " "%char = false -> (forall c, plain_char c = true -> p c = false) ->
  all_chars (fun c => negb (p c)) (loose deps) = true.
Proof.
  intros F S P. assert (AA : forall a b, all_chars (fun c => negb (p c)) (a +++ b) = all_chars (fun c => negb (p c)) a && all_chars (fun c => negb (p c)) b).
  { clear. intros a b. induction a as [|c a IH]; [reflexivity|]. cbn. rewrite IH, andb_assoc. reflexivity. }
  unfold loose. induction deps as [|x deps IH]; [reflexivity|]. apply Forall_cons_iff in F as [Px F]. specialize (IH F).
  assert (X : all_chars (fun c => negb (p c)) x = true) by (apply plain_not; assumption).
  destruct deps as [|y deps]; [exact X|]. rewrite join_cons2, !AA, X, IH. cbn. rewrite S. reflexivity.
Qed.

Lemma read_rule_line o deps : plain o -> Forall plain deps -> read_rule (o +++ ": " +++ loose deps) = [(o, deps)].
Proof.
  intros P F. unfold read_rule. change (": " +++ loose deps) with (String ":" (" " +++ loose deps)).
  rewrite split_cons; [|apply plain_not; [intros c H; apply plain_facts, H|exact P]|reflexivity].
  assert (L : all_chars (fun c => negb (is_colon c)) (" " +++ loose deps) = true).
  { change (" " +++ loose deps) with (String " " (loose deps)). cbn [all_chars]. rewrite (loose_no deps is_colon F eq_refl); [reflexivity|].
    intros c H. apply plain_facts, H. }
  rewrite (split_end _ _ L). rewrite (words_one o P), words_skip, (words_loose deps F). reflexivity.
Qed.

Lemma read_back outs deps : Forall plain outs -> Forall plain deps ->
  read_rules (depfile_text (Depfile outs deps)) = map (fun o => (o, deps)) outs.
Proof.
  intros FO FD. unfold depfile_text, read_rules. cbn [df_outputs df_deps].
  induction outs as [|o outs IH]; [reflexivity|]. apply Forall_cons_iff in FO as [P FO]. specialize (IH FO).
  cbn [fold_right map]. set (rest := fold_right _ "" outs) in *.
  assert (PB : all_chars (fun c => negb (Ascii.eqb c bs)) o = true) by (apply plain_not; [intros c H; apply plain_facts, H|exact P]).
  rewrite continued_app by exact PB. rewrite (continued_app ": ") by reflexivity.
  rewrite (continued_join deps _ FD).
  change (newline +++ newline +++ rest) with (String nl (String nl "") +++ rest). rewrite continued_app by reflexivity.
  assert (LN : all_chars (fun c => negb (is_nl c)) (o +++ ": " +++ loose deps) = true).
  { assert (AA : forall a b, all_chars (fun c => negb (is_nl c)) (a +++ b) = all_chars (fun c => negb (is_nl c)) a && all_chars (fun c => negb (is_nl c)) b).
    { clear. intros a b. induction a as [|c a IH]; [reflexivity|]. cbn. rewrite IH, andb_assoc. reflexivity. }
    rewrite !AA. rewrite (plain_not is_nl o) by (auto; intros c H; apply plain_facts, H).
    rewrite (loose_no deps is_nl FD eq_refl) by (intros c H; apply plain_facts, H). reflexivity. }
  replace (o +++ ": " +++ loose deps +++ String nl (String nl "") +++ continued rest)
    with ((o +++ ": " +++ loose deps) +++ String nl ("" +++ String nl (continued rest))) by (rewrite !sapp_assoc; reflexivity).
  rewrite split_cons by (exact LN || reflexivity). rewrite split_cons by reflexivity. cbn [flat_map].
  rewrite (read_rule_line o deps P FD). change (read_rule "") with (@nil (string * list string)). cbn [app]. f_equal. exact IH.
Qed.

(** Calls of the recorder, in any order. *)
Inductive record := ROutput (p : string) | RDependency (p : string).
Fixpoint recorded (relativize : string -> option string) (l : list record) (f : depfile) : option depfile :=
  match l with
  | [] => Some f
  | r :: l' =>
      match match r with ROutput p => add_output relativize p f | RDependency p => add_dependency relativize p f end with
      | Some f' => recorded relativize l' f'
      | None => None
      end
  end.
Definition outputs_of (l : list record) : list string := flat_map (fun r => match r with ROutput p => [p] | _ => [] end) l.
Definition dependencies_of (l : list record) : list string := flat_map (fun r => match r with RDependency p => [p] | _ => [] end) l.

(** C34: the text read as rules has one rule for each recorded output, in
    order, which lists each recorded dependency, in order, provided that the
    relative paths have no blanks, colons, backslashes or line breaks. *)
Theorem c34_read_back :
  forall relativize l f,
    recorded relativize l depfile_new = Some f ->
    (forall p r, In p (outputs_of l) \/ In p (dependencies_of l) -> relativize p = Some r -> plain r) ->
    exists outs deps,
      map Some outs = map relativize (outputs_of l) /\ map Some deps = map relativize (dependencies_of l)
      /\ read_rules (depfile_text f) = map (fun o => (o, deps)) outs.
Proof.
  intros relativize l f R P.
  assert (G : forall l f0, recorded relativize l f0 = Some f ->
    exists outs deps, map Some outs = map relativize (outputs_of l) /\ map Some deps = map relativize (dependencies_of l)
      /\ df_outputs f = df_outputs f0 ++ outs /\ df_deps f = df_deps f0 ++ deps).
  { clear. induction l as [|r l IH]; intros f0 R; cbn [recorded] in R.
    - injection R as ->. exists [], []. rewrite !app_nil_r. auto.
    - destruct r as [p|p].
      + unfold add_output in R. destruct (relativize p) as [q|] eqn:E; [|discriminate R].
        destruct (IH _ R) as (outs & deps & A & B & C & D). exists (q :: outs), deps. cbn in *. rewrite A, E. rewrite C, <- app_assoc. auto.
      + unfold add_dependency in R. destruct (relativize p) as [q|] eqn:E; [|discriminate R].
        destruct (IH _ R) as (outs & deps & A & B & C & D). exists outs, (q :: deps). cbn in *. rewrite B, E. rewrite D, <- app_assoc. auto. }
  destruct (G l _ R) as (outs & deps & A & B & C & D). exists outs, deps. split; [exact A|]. split; [exact B|].
  destruct f as [os ds]. cbn in C, D. subst os ds. apply read_back.
  - apply Forall_forall. intros r I. apply (in_map Some) in I. rewrite A in I. apply in_map_iff in I as (p & E & I). apply (P p r); auto.
  - apply Forall_forall. intros r I. apply (in_map Some) in I. rewrite B in I. apply in_map_iff in I as (p & E & I). apply (P p r); auto.
Qed.
Print Assumptions c34_read_back.

(** Every file of a successful run is an output, also those which were not
    written because they have not changed. *)
Theorem c34_every_file_is_an_output :
  forall readable io relativize outdir l d f w,
    run_steps readable io relativize outdir l (Writer d [] (Some f)) = (w, None) ->
    exists outs, map Some outs = map (fun n => relativize (pjoin outdir n)) (names l)
      /\ w_dep w = Some (Depfile (df_outputs f ++ outs) (df_deps f)).
Proof.
  intros readable io relativize outdir l d f w R.
  assert (G : forall l w0 f, w_dep w0 = Some f -> run_steps readable io relativize outdir l w0 = (w, None) ->
    exists outs, map Some outs = map (fun n => relativize (pjoin outdir n)) (names l)
      /\ w_dep w = Some (Depfile (df_outputs f ++ outs) (df_deps f))).
  { clear. induction l as [|[n c|e] l IH]; intros w0 f D R; cbn [run_steps] in R.
    - injection R as ->. exists []. rewrite app_nil_r. destruct f. auto.
    - destruct (write_to_file readable io relativize outdir n c w0) as [w1 [e|]] eqn:W; [discriminate R|].
      unfold write_to_file in W. rewrite D in W. unfold add_output in W.
      destruct (relativize (pjoin outdir n)) as [q|] eqn:E; [|discriminate W].
      assert (D1 : w_dep w1 = Some (Depfile (df_outputs f ++ [q]) (df_deps f))).
      { cbv beta iota zeta in W.
        repeat match type of W with context [match ?x with _ => _ end] => destruct x end; try discriminate W; injection W as <-; reflexivity. }
      destruct (IH _ _ D1 R) as (outs & A & B). exists (q :: outs). cbn in B. rewrite <- app_assoc in B.
      split; [|exact B]. unfold names. cbn [writes map fst]. fold (names l). rewrite <- A, E. reflexivity.
    - discriminate R. }
  exact (G l (Writer d [] (Some f)) f eq_refl R).
Qed.
Print Assumptions c34_every_file_is_an_output.

(** Nothing is escaped: a path with a space becomes two prerequisites. *)
Theorem c34_space_refuted :
  exists f, recorded (fun p => Some p) [ROutput "gen0.h"; RDependency "my headers/a.h"] depfile_new = Some f
    /\ read_rules (depfile_text f) = [("gen0.h", ["my"; "headers/a.h"])].
Proof. eexists. split; [reflexivity|]. vm_compute. reflexivity. Qed.
Print Assumptions c34_space_refuted.

Example c34_case :
  exists f, recorded (fun p => Some p) [RDependency "a.h"; ROutput "gen0.h"; RDependency "../b.h"; ROutput "gen0.cc"] depfile_new = Some f
    /\ depfile_text f = ("gen0.h: a.h " +++ backslash +++ newline +++ "  ../b.h" +++ newline +++ newline +++
                         "gen0.cc: a.h " +++ backslash +++ newline +++ "  ../b.h" +++ newline +++ newline)
    /\ read_rules (depfile_text f) = [("gen0.h", ["a.h"; "../b.h"]); ("gen0.cc", ["a.h"; "../b.h"])]
    /\ plain "../b.h".
Proof. eexists. split; [reflexivity|]. split; [vm_compute; reflexivity|]. split; [vm_compute; reflexivity|]. split; [reflexivity|discriminate]. Qed.

(** ** Names in the build script's directories (C36, C40) *)

(** What is written for numbered pairs. *)
Definition pair_writes (cxxdir incdir : string) (ip : nat * pair) : list (string * string * string) :=
  (match p_impl (snd ip) with
   | Some c => [(cxxdir, "gen" +++ dec (fst ip) +++ ".cxx", c)]
   | None => []
   end ++ [(incdir, p_header_name (snd ip), p_header (snd ip))])%list.

Lemma build_cpp_pairs cxxdir incdir : forall l counter cx,
  build_cpp_writes cxxdir incdir counter cx l
  = match all_pairs false cx l with
    | Some (ps, _) => Some (flat_map (pair_writes cxxdir incdir) (combine (seq counter (List.length ps)) ps))
    | None => None
    end.
Proof.
  induction l as [|g l IH]; intros counter cx; [reflexivity|]. cbn [build_cpp_writes all_pairs].
  destruct (pairs_of false cx g) as [[ps cx']|]; [|reflexivity]. rewrite IH. destruct (all_pairs false cx' l) as [[qs cx2]|]; [|reflexivity].
  f_equal. rewrite app_length, seq_app.
  assert (CA : forall (a c : list nat) (b d : list pair), List.length a = List.length b -> combine (a ++ c) (b ++ d) = (combine a b ++ combine c d)%list).
  { clear. induction a as [|x a IHa]; intros c [|y b] d L; try discriminate L; [reflexivity|]. cbn. f_equal. apply IHa. injection L as L; exact L. }
  rewrite CA by apply seq_length. rewrite flat_map_app. reflexivity.
Qed.

Lemma pair_paths cxxdir incdir ps : forall c p x,
  In (p, x) (built (flat_map (pair_writes cxxdir incdir) (combine (seq c (List.length ps)) ps))) ->
  (exists i, c <= i /\ p = pjoin cxxdir ("gen" +++ dec i +++ ".cxx")) \/ (exists h, In h (map p_header_name ps) /\ p = pjoin incdir h).
Proof.
  induction ps as [|q ps IH]; intros c p x I; [destruct I|]. cbn [List.length seq combine flat_map] in I.
  unfold built in I. rewrite map_app in I. apply in_app_iff in I as [I|I].
  - unfold pair_writes in I. cbn [fst snd] in I. rewrite map_app in I. apply in_app_iff in I as [I|[I|[]]].
    + destruct (p_impl q); [|destruct I]. destruct I as [I|[]]. injection I as <- _. left. exists c. auto.
    + injection I as <- _. right. exists (p_header_name q). split; [left; reflexivity|reflexivity].
  - apply IH in I as [(i & L & E)|(h & J & E)].
    + left. exists i. split; [lia|exact E].
    + right. exists h. split; [right; exact J|exact E].
Qed.

Lemma pair_paths_distinct cxxdir incdir ps : (forall a b, pjoin cxxdir a <> pjoin incdir b) -> NoDup (map p_header_name ps) -> forall c,
  NoDup (map fst (built (flat_map (pair_writes cxxdir incdir) (combine (seq c (List.length ps)) ps)))).
Proof.
  intros D. induction ps as [|q ps IH]; intros N c; [constructor|]. cbn [map] in N. apply NoDup_cons_iff in N as [NI N].
  cbn [List.length seq combine flat_map]. unfold built in *. rewrite !map_app. specialize (IH N (S c)).
  apply NoDup_app_intro; [|exact IH|].
  - unfold pair_writes. cbn [fst snd]. destruct (p_impl q); cbn.
    + constructor; [intros [E|[]]; exact (D _ _ (eq_sym E))|repeat constructor; intros []].
    + repeat constructor; intros [].
  - intros p I J. apply in_map_iff in J as ([p' y] & E & J). cbn in E; subst p'. apply pair_paths in J.
    unfold pair_writes in I. cbn [fst snd] in I. rewrite !map_app in I. apply in_app_iff in I as [I|[I|[]]].
    + destruct (p_impl q); [|destruct I]. destruct I as [<-|[]]. destruct J as [(i & L & E)|(h & J & E)].
      * cbn in E. apply pjoin_inj in E. apply (numbered "gen" c i) in E as [E _]. lia.
      * exact (D _ _ E).
    + cbn in I; subst p. destruct J as [(i & L & E)|(h & J & E)].
      * exact (D _ _ (eq_sym E)).
      * apply pjoin_inj in E. subst h. exact (NI J).
Qed.

(** The paths which the build script writes are all different, if its three
    directories, the modules of its files and the names of its Rust files are. *)
Theorem c40_builder_names_distinct :
  forall cxxdir incdir rsdir cxx_h files gs cx ac ws,
    (forall a b, pjoin cxxdir a <> pjoin incdir b) -> (forall a b, pjoin cxxdir a <> pjoin rsdir b) -> (forall a b, pjoin incdir a <> pjoin rsdir b) ->
    resolve_files false 0 0 files = Ok (gs, cx, ac) -> NoDup (extra_mods gs) -> NoDup (map fst (rs_outputs gs)) ->
    build_writes cxxdir incdir rsdir cxx_h gs cx = Some ws ->
    NoDup (map fst (built ws)).
Proof.
  intros cxxdir incdir rsdir cxx_h files gs cx ac ws D1 D2 D3 R NM NR B.
  unfold build_writes in B. rewrite build_cpp_pairs in B. destruct (all_pairs false cx gs) as [[ps cx']|] eqn:AP; [|discriminate B].
  injection B as <-. apply resolve_files_names in R as (NE & _ & _ & CX & LN & EX). rewrite Nat.sub_0_r in *.
  destruct (all_pairs_names _ _ _ _ _ NE AP) as [_ PH].
  assert (XN : forall a l, List.length l = ac -> map (fun p : nat * string => autocxxgen_name false (fst p) (snd p)) (combine (seq a ac) l) = map default_autocxxgen_name l).
  { clear. intros a l <-. revert a. induction l as [|m l IH]; intros a; [reflexivity|]. cbn [List.length seq combine map fst snd]. rewrite IH. reflexivity. }
  unfold header_names_of in PH. rewrite CX, EX, (XN 0 _ LN) in PH. change cx with (0 + cx) in PH at 2. rewrite app_assoc, <- map_app, <- seq_app in PH.
  assert (HN : NoDup (map p_header_name ps) /\ ~ In "cxx.h" (map p_header_name ps)).
  { split.
    - eapply Permutation_NoDup; [apply Permutation_sym, PH|]. apply NoDup_app_intro.
      + apply map_seq_nodup, default_cxxgen_inj.
      + apply FinFun.Injective_map_NoDup; [intros a b; apply default_autocxxgen_inj|exact NM].
      + intros n I J. apply in_map_iff in I as (i & <- & _). apply in_map_iff in J as (m & E & _). symmetry in E. revert E. cbn. apply c40_header_names.
    - intros I. apply (Permutation_in _ PH) in I. apply in_app_iff in I as [I|I]; apply in_map_iff in I as (i & E & _).
      + unfold cxxgen_name, default_cxxgen_name in E. destruct (i =? 0); discriminate E.
      + discriminate E. }
  destruct HN as [HN HC]. unfold built. cbn [map fst snd]. rewrite !map_app. fold (built (flat_map (pair_writes cxxdir incdir) (combine (seq 0 (List.length ps)) ps))).
  apply NoDup_cons_iff. split.
  - rewrite in_app_iff. intros [I|I].
    + apply in_map_iff in I as ([p x] & E & I). cbn in E; subst p. apply pair_paths in I as [(i & _ & E)|(h & J & E)].
      * exact (D1 _ _ (eq_sym E)).
      * apply pjoin_inj in E. subst h. exact (HC J).
    + rewrite !map_map in I. apply in_map_iff in I as (r & E & _). exact (D3 _ _ (eq_sym E)).
  - apply NoDup_app_intro.
    + apply pair_paths_distinct; assumption.
    + rewrite !map_map. cbn [fst snd]. rewrite <- (map_map fst (pjoin rsdir)). apply FinFun.Injective_map_NoDup; [intros a b; apply pjoin_inj|exact NR].
    + intros p I J. rewrite !map_map in J. apply in_map_iff in J as (r & E & _). cbn in E; subst p.
      apply in_map_iff in I as ([p x] & E & I). cbn in E; subst p. apply pair_paths in I as [(i & _ & E)|(h & _ & E)].
      * exact (D2 _ _ (eq_sym E)).
      * exact (D3 _ _ (eq_sym E)).
Qed.
Print Assumptions c40_builder_names_distinct.

(** So a second build of the same blocks touches nothing. *)
Theorem c36_build_script_rebuild :
  forall io io' cxxdir incdir rsdir cxx_h files gs cx ac ws d d',
    (forall a b, pjoin cxxdir a <> pjoin incdir b) -> (forall a b, pjoin cxxdir a <> pjoin rsdir b) -> (forall a b, pjoin incdir a <> pjoin rsdir b) ->
    resolve_files false 0 0 files = Ok (gs, cx, ac) -> NoDup (extra_mods gs) -> NoDup (map fst (rs_outputs gs)) ->
    build_writes cxxdir incdir rsdir cxx_h gs cx = Some ws ->
    builder_writes (fun _ => true) io ws d = (d', None) ->
    builder_writes (fun _ => true) io' ws d' = (d', None).
Proof.
  intros io io' cxxdir incdir rsdir cxx_h files gs cx ac ws d d' D1 D2 D3 R NM NR B W.
  eapply c36_builder_rebuild_touches_nothing; [exact W| |apply incl_refl].
  apply distinct_consistent. exact (c40_builder_names_distinct _ _ _ _ _ _ _ _ _ D1 D2 D3 R NM NR B).
Qed.
Print Assumptions c36_build_script_rebuild.

Example c36_case :
  (forall a b, pjoin "o/cxx" a <> pjoin "o/include" b) /\ (forall a b, pjoin "o/cxx" a <> pjoin "o/rs" b) /\ (forall a b, pjoin "o/include" a <> pjoin "o/rs" b)
  /\ exists gs cx ac ws d',
    resolve_files false 0 0 demo_files = Ok (gs, cx, ac) /\ NoDup (extra_mods gs) /\ NoDup (map fst (rs_outputs gs))
    /\ build_writes "o/cxx" "o/include" "o/rs" "cxx" gs cx = Some ws /\ List.length ws = 11
    /\ builder_writes (fun _ => true) (fun _ => IoOk) ws (FS [] 0) = (d', None) /\ List.length (fs_files d') = 11.
Proof.
  split; [intros a b E; discriminate E|]. split; [intros a b E; discriminate E|]. split; [intros a b E; discriminate E|].
  do 5 eexists. split; [vm_compute; reflexivity|]. split; [repeat constructor; intros []|].
  split; [cbn; repeat constructor; cbn; intuition discriminate|]. split; [vm_compute; reflexivity|]. split; [reflexivity|].
  split; [vm_compute; reflexivity|reflexivity].
Qed.
Example c40_case :
  exists gs cx ac, resolve_files false 0 0 demo_files = Ok (gs, cx, ac)
    /\ names (plan (Options true "cc" None true true false true) "cxx" "{}" gs cx ac)
       = ["gen0.cc"; "cxxgen.h"; "gen1.cc"; "autocxxgen_ffi.h"; "gen2.cc"; "cxxgen1.h"; "gen3.cc"; "cxxgen2.h"; "cxx.h";
          "autocxx-ffi-gen.rs"; "autocxx-ffi2-gen.rs"; "gen.rs.json"]
    /\ goes_on (plan (Options true "cc" None true true false true) "cxx" "{}" gs cx ac)
    /\ NoDup (extra_mods gs) /\ NoDup (map fst (rs_outputs gs)).
Proof.
  do 3 eexists. split; [vm_compute; reflexivity|]. split; [vm_compute; reflexivity|].
  split; [vm_compute; intuition discriminate|]. split; [repeat constructor; intros []|]. cbn; repeat constructor; cbn; intuition discriminate.
Qed.

(** Module names need only be different within one file: two files whose
    blocks have the same module name ask for two headers of one name. *)
Theorem c40_two_files_refuted :
  exists files gs cx ac, resolve_files false 0 0 files = Ok (gs, cx, ac)
    /\ ~ NoDup (names (plan (Options true "cc" None false false false false) "cxx" "{}" gs cx ac))
    /\ snd (tool (fun _ => true) (fun _ => IoOk) (fun p => Some p) "out" (Options true "cc" None false false false false) "cxx" "{}" files (FS [] 0) None)
       = Some (ETwoFiles "autocxxgen_ffi.h").
Proof.
  exists [[BAuto (Block "ffi" false "h0" "c0" (Some ("x0", Some "xc0")) "autocxx-ffi-gen.rs" "rs0")];
          [BAuto (Block "ffi" false "h1" "c1" (Some ("x1", Some "xc1")) "autocxx-ffi-gen.rs" "rs1")]].
  do 3 eexists. split; [vm_compute; reflexivity|]. split; [|vm_compute; reflexivity].
  intros N. vm_compute in N. do 3 apply NoDup_cons_iff in N as [_ N]. apply NoDup_cons_iff in N as [N _]. apply N. do 3 right. left. reflexivity.
Qed.
Print Assumptions c40_two_files_refuted.
