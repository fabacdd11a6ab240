(** C94: what autocxx-reduce is asked to do reaches the generator, its script runs the same generation as its sample run,
    and a case written by the engine is read back as it was meant. *)
From Verif Require Import Base ConfigModel ConfigProofs ConfigProps EngineModel MdBookModel MdBookProofs ReduceModel.
Local Open Scope list_scope.

(** ** Texts split at a character *)

Definition free_of (c : ascii) (s : string) : Prop := all_chars (fun d => negb (Ascii.eqb d c)) s = true.

Lemma split_sep c x r : free_of c x -> split_at c (x +++ String c r) = x :: split_at c r.
Proof.
  unfold free_of. induction x as [|d x IH]; cbn [all_chars append split_at].
  - intros _. rewrite Ascii.eqb_refl. reflexivity.
  - intros H. apply andb_prop in H as (A & B). apply negb_true_iff in A. rewrite A, (IH B). reflexivity.
Qed.
Lemma split_words c l r : l <> [] -> Forall (free_of c) l -> split_at c (Base.join (String c "") l +++ String c r) = l ++ split_at c r.
Proof.
  induction l as [|x l IH]; intros NE F; [contradiction|]. inversion F as [|? ? FX FL]; subst.
  destruct l as [|y l].
  - cbn [Base.join app]. apply split_sep; exact FX.
  - change (Base.join (String c "") (x :: y :: l)) with (x +++ String c "" +++ Base.join (String c "") (y :: l)).
    rewrite !sapp_assoc. cbn [append]. rewrite split_sep by exact FX. rewrite IH by (discriminate || exact FL). reflexivity.
Qed.
Lemma free_app c a b : free_of c a -> free_of c b -> free_of c (a +++ b).
Proof. unfold free_of. intros A B. rewrite all_chars_app, A, B. reflexivity. Qed.
Lemma free_join c sep l : free_of c sep -> Forall (free_of c) l -> free_of c (Base.join sep l).
Proof.
  intros S F. induction F as [|x l FX FL IH]; [reflexivity|]. destruct l as [|y l]; [exact FX|].
  change (Base.join sep (x :: y :: l)) with (x +++ sep +++ Base.join sep (y :: l)). auto using free_app.
Qed.

Lemma split_line x r : free_of LF x -> split_at LF (x +++ nl +++ r) = x :: split_at LF r.
Proof. apply split_sep. Qed.

(** ** The headers and directives asked for *)

(** The header which is preprocessed includes each header asked for, in order and nothing else, and the macro in the Rust file includes the
    preprocessed header and has each directive asked for. *)
Theorem c94_asked : forall tmp clang_stdout inc define headers directives acts text,
  prepare tmp clang_stdout (InFile inc define headers directives) = Done (acts, text) ->
  Forall no_lf headers -> Forall no_lf directives ->
  exists listing rs, In (Write (under tmp "listing.h") (Text listing)) acts /\ In (Write (under tmp "input.rs") (Text rs)) acts
    /\ split_at LF listing = map (fun h => "#include " +++ quote +++ h +++ quote) headers ++ [""]
    /\ split_at LF rs = ["use autocxx::include_cpp;"; "include_cpp! ("; "#include " +++ quote +++ "concat.h" +++ quote] ++ directives ++ [");"; ""].
Proof.
  intros tmp clang_stdout inc define headers directives acts text H FH FD. cbn [prepare] in H.
  destruct headers as [|h0 headers]; [discriminate|]. destruct (clang_stdout _) as [t|]; [|discriminate]. injection H as <- <-.
  eexists _, _. split; [left; reflexivity|]. split; [right; right; right; left; reflexivity|].
  assert (CC : forall x l, String.concat "" (x :: l) = x +++ String.concat "" l).
  { intros x [|y l]; [cbn; rewrite app_empty_r; reflexivity|reflexivity]. }
  assert (L : forall h r, no_lf h -> split_at LF (("#include " +++ quote +++ h +++ quote +++ nl) +++ r) = ("#include " +++ quote +++ h +++ quote) :: split_at LF r).
  { intros h r F. replace (("#include " +++ quote +++ h +++ quote +++ nl) +++ r) with (("#include " +++ quote +++ h +++ quote) +++ nl +++ r) by (rewrite !sapp_assoc; reflexivity).
    apply split_line. repeat apply free_app; try reflexivity; exact F. }
  split.
  - clear FD. unfold concatenated_header. revert FH. generalize (h0 :: headers). intros hs FH.
    induction FH as [|h hs FX FL IH]; [reflexivity|].
    cbn [map]. rewrite CC, (L _ _ FX), IH. reflexivity.
  - clear FH. unfold rs_file_text. rewrite CC, split_line by reflexivity. rewrite split_line by reflexivity.
    rewrite (sapp_assoc ("#include " +++ quote +++ "concat.h" +++ quote +++ nl)), (L "concat.h") by reflexivity.
    cbn [app]. do 3 f_equal.
    induction FD as [|d ds FX FL IH]; [reflexivity|]. cbn [map]. rewrite CC, !sapp_assoc, split_line by exact FX. rewrite IH. reflexivity.
Qed.
Print Assumptions c94_asked.

(** The preprocessor is given the listing last, every include directory as [-I], and what it prints is the header to reduce. *)
Theorem c94_preprocessed : forall tmp clang_stdout inc define headers directives acts text,
  prepare tmp clang_stdout (InFile inc define headers directives) = Done (acts, text) ->
  exists before args after, acts = before ++ Preprocess args text :: after
    /\ clang_stdout args = Some text /\ In (Write (under tmp "concat.h") (Text text)) after
    /\ (exists listing, In (Write (under tmp "listing.h") (Text listing)) before)
    /\ (exists rest, args = rest ++ [under tmp "listing.h"] /\ In "-E" rest)
    /\ (forall d, In d inc -> In ("-I" +++ d) args).
Proof.
  intros tmp clang_stdout inc define headers directives acts text H. cbn [prepare] in H.
  destruct headers as [|h0 headers]; [discriminate|]. destruct (clang_stdout _) as [t|] eqn:E; [|discriminate]. injection H as <- <-.
  eexists [_], _, _. split; [reflexivity|]. split; [exact E|]. split; [left; reflexivity|]. split; [eexists; left; reflexivity|]. split.
  - unfold preprocess_args. eexists. rewrite app_assoc. split; [reflexivity|]. left. reflexivity.
  - intros d I. unfold preprocess_args, make_clang_args. rewrite !in_app_iff. right. left. right. left. apply in_map_iff. eauto.
Qed.
Print Assumptions c94_preprocessed.

(** A macro to be defined, asked for by [-D] or [--define], is given to the preprocessor as it is, without [-D] before it: clang takes it for the name of another
    file to be preprocessed. *)
Theorem c94_define_refuted : exists define,
  forall tmp clang_stdout inc headers directives acts text, ~ In ("-D" +++ define) (map (fun d => "-I" +++ d) inc) -> under tmp "listing.h" <> "-D" +++ define ->
    prepare tmp clang_stdout (InFile inc [define] headers directives) = Done (acts, text) ->
    forall args out, In (Preprocess args out) acts -> In define args /\ ~ In ("-D" +++ define) args.
Proof.
  exists "MY_MACRO". intros tmp clang_stdout inc headers directives acts text NI NL H args out I. cbn [prepare] in H.
  destruct headers as [|h0 headers]; [discriminate|]. destruct (clang_stdout _) as [t|] eqn:E; [|discriminate]. injection H as <- <-.
  destruct I as [I|[I|[I|[I|[]]]]]; try discriminate I. injection I as <- <-. unfold preprocess_args, make_clang_args. split.
  - rewrite !in_app_iff. right. left. right. right. left. reflexivity.
  - rewrite !in_app_iff. intros [X|[[X|[X|X]]|X]].
    + cbn in X. intuition discriminate.
    + cbn in X. intuition discriminate.
    + exact (NI X).
    + cbn in X. intuition discriminate.
    + destruct X as [X|[]]. exact (NL X).
Qed.
Print Assumptions c94_define_refuted.

(** A reproduction case is reduced from its own header, or from the one given to resume a run, and in either case that is the header searched for cxx.h. *)
Theorem c94_resume : forall tmp clang_stdout case header acts text,
  prepare tmp clang_stdout (InRepro case header) = Done (acts, text) ->
  (exists ts, rewrite_config (rp_config case) = Done ts /\ In (Write (under tmp "input.rs") (IncludeCpp ts)) acts)
  /\ (header = None -> text = rp_header case /\ In (Write (under tmp "concat.h") (Text text)) acts)
  /\ (forall h t, header = Some (h, t) -> text = t /\ In (Copy h (under tmp "concat.h")) acts).
Proof.
  intros tmp clang_stdout case header acts text H. cbn [prepare] in H. destruct (rewrite_config (rp_config case)) as [ts|e|]; try discriminate H. injection H as <- <-.
  split; [exists ts; split; [reflexivity|left; reflexivity]|]. split.
  - intros ->. split; [reflexivity|right; left; reflexivity].
  - intros h t ->. split; [reflexivity|right; left; reflexivity].
Qed.
Print Assumptions c94_resume.

(** ** Definitions against including cxx twice *)

(** [w] is a word of [s], not a part of a longer one. *)
Definition whole_word (w s : string) : Prop :=
  all_chars is_word w = true
  /\ exists a b, s = a +++ w +++ b /\ (forall a' c, a = a' +++ String c "" -> is_word c = false) /\ (forall c b', b = String c b' -> is_word c = false).

Fixpoint last_word (prev : bool) (a : string) : bool := match a with EmptyString => prev | String c r => last_word (is_word c) r end.
Lemma last_word_snoc a : forall prev c, last_word prev (a +++ String c "") = is_word c.
Proof. induction a as [|d a IH]; intros prev c; [reflexivity|]. cbn. apply IH. Qed.
Lemma snoc_cases a : a = "" \/ exists b c, a = b +++ String c "".
Proof.
  induction a as [|d a [->|(b & c & ->)]]; [left; reflexivity|right; exists "", d; reflexivity|right; exists (String d b), c; reflexivity].
Qed.
Lemma last_word_spec a : last_word false a = false <-> (forall a' c, a = a' +++ String c "" -> is_word c = false).
Proof.
  split.
  - intros H a' c ->. rewrite last_word_snoc in H. exact H.
  - intros H. destruct (snoc_cases a) as [->|(b & c & ->)]; [reflexivity|]. rewrite last_word_snoc. eapply H. reflexivity.
Qed.
Lemma word_split s : exists b, s = word_of s +++ b /\ (forall c b', b = String c b' -> is_word c = false).
Proof.
  induction s as [|c s (b & E & H)]; [exists ""; split; [reflexivity|discriminate]|]. cbn. destruct (is_word c) eqn:W.
  - exists b. cbn. rewrite <- E. auto.
  - exists (String c s). split; [reflexivity|]. intros d b' X. injection X as <- _. exact W.
Qed.
Lemma word_of_word s : all_chars is_word (word_of s) = true.
Proof. induction s as [|c s IH]; [reflexivity|]. cbn. destruct (is_word c) eqn:W; [cbn; rewrite W; exact IH|reflexivity]. Qed.
Lemma word_of_app w b : all_chars is_word w = true -> word_of (w +++ b) = w +++ word_of b.
Proof.
  induction w as [|c w IH]; cbn; intros H; [reflexivity|]. apply andb_prop in H as (A & B). rewrite A, IH by exact B. reflexivity.
Qed.
Lemma word_of_stop b : (forall c b', b = String c b' -> is_word c = false) -> word_of b = "".
Proof. destruct b as [|c b]; intros H; [reflexivity|]. cbn. rewrite (H c b eq_refl). reflexivity. Qed.

Lemma find_spec s : forall prev w, In w (find_defines prev s) <->
  starts_with "CXXBRIDGE1_" w = true /\ 11 < String.length w /\ all_chars is_word w = true
  /\ exists a b, s = a +++ w +++ b /\ last_word prev a = false /\ (forall c b', b = String c b' -> is_word c = false).
Proof.
  induction s as [|c s IH]; intros prev w.
  - cbn. split; [intros []|]. intros (_ & L & _ & a & b & E & _). destruct a; [|discriminate]. destruct w; [cbn in L; lia|discriminate].
  - cbn [find_defines]. rewrite in_app_iff, IH. split.
    + intros [I|(P & L & W & a & b & -> & LA & B)].
      * destruct (negb prev && starts_with "CXXBRIDGE1_" (String c s) && Nat.ltb 11 (String.length (word_of (String c s)))) eqn:E; [|destruct I].
        apply andb_prop in E as (E & L). apply andb_prop in E as (NP & P). apply Nat.ltb_lt in L. destruct I as [<-|[]].
        apply starts_with_spec in P as (t & P). split; [|split; [exact L|split; [apply word_of_word|]]].
        { apply starts_with_spec. exists (word_of t). rewrite P. apply word_of_app. reflexivity. }
        destruct (word_split (String c s)) as (b & Eb & B). exists "", b. split; [exact Eb|]. split; [|exact B]. cbn. apply negb_true_iff. exact NP.
      * split; [exact P|]. split; [exact L|]. split; [exact W|]. exists (String c a), b. auto.
    + intros (P & L & W & a & b & E & LA & B). destruct a as [|d a].
      * left. cbn in LA. rewrite LA. cbn [append] in E. rewrite E, (word_of_app w b W), (word_of_stop b B), app_empty_r.
        apply Nat.ltb_lt in L. rewrite L. apply starts_with_spec in P as (t & P).
        replace (starts_with "CXXBRIDGE1_" (w +++ b)) with true; [left; reflexivity|].
        symmetry. apply starts_with_spec. exists (t +++ b). rewrite P, sapp_assoc. reflexivity.
      * right. cbn [append] in E. injection E as <- ->. cbn [last_word] in LA. split; [exact P|]. split; [exact L|]. split; [exact W|]. exists a, b. auto.
Qed.
Lemma fold_sinsert l : forall acc, NoDup acc -> NoDup (fold_left (fun acc w => sinsert w acc) l acc)
  /\ forall x, In x (fold_left (fun acc w => sinsert w acc) l acc) <-> In x acc \/ In x l.
Proof.
  induction l as [|w l IH]; intros acc N; cbn; [split; [exact N|intros x; tauto]|].
  destruct (IH (sinsert w acc)) as (A & B).
  - unfold sinsert. destruct (smem w acc) eqn:E; [exact N|]. apply smem_nIn in E. apply NoDup_app_intro; [exact N|constructor; [intros []|constructor]|].
    intros x I [<-|[]]. exact (E I).
  - split; [exact A|]. intros x. rewrite B, sinsert_In. intuition.
Qed.

(** The definitions are those, each once, for the guards of cxx: the whole words of its header which start with [CXXBRIDGE1_] and go on. *)
Theorem c94_suppressions : forall header, NoDup (get_cxx_suppressions header)
  /\ forall x, In x (get_cxx_suppressions header) <->
       exists w, x = "-D" +++ w /\ whole_word w header /\ starts_with "CXXBRIDGE1_" w = true /\ w <> "CXXBRIDGE1_".
Proof.
  intros header. destruct (fold_sinsert (find_defines false header) [] (NoDup_nil _)) as (N & I). unfold get_cxx_suppressions. split.
  - apply FinFun.Injective_map_NoDup; [|exact N]. intros a b H. injection H as H. exact H.
  - intros x. rewrite in_map_iff. split.
    + intros (w & <- & W). apply I in W as [[]|W]. apply find_spec in W as (P & L & W & a & b & E & LA & B). exists w. split; [reflexivity|]. split.
      * split; [exact W|]. exists a, b. split; [exact E|]. split; [apply last_word_spec; exact LA|exact B].
      * split; [exact P|]. intros ->. cbn in L. lia.
    + intros (w & -> & (W & a & b & E & LA & B) & P & NE). exists w. split; [reflexivity|]. apply I. right. apply find_spec. split; [exact P|]. split.
      * apply starts_with_spec in P as (t & ->). rewrite slen_app. destruct t; [exfalso; apply NE; reflexivity|]. cbn. lia.
      * split; [exact W|]. exists a, b. split; [exact E|]. split; [apply last_word_spec; exact LA|exact B].
Qed.
Print Assumptions c94_suppressions.

(** ** Cases written by the engine *)

Lemma no_entries l : items l = [] -> namespaces l = [] -> l = [].
Proof. destruct l as [|[s|s] l]; cbn; intros A B; [reflexivity|discriminate A|discriminate B]. Qed.
Lemma same_allow_trans a b c : same_allow a b -> same_allow b c -> same_allow a c.
Proof.
  destruct a as [a| |a], b as [b| |b], c as [c| |c]; cbn; try tauto. intros (A1 & A2 & A3 & A4) (B1 & B2 & B3 & B4).
  split; [intros s; rewrite A1; apply B1|]. split; [intros s; rewrite A2; apply B2|]. split; [congruence|]. eapply Permutation_trans; eassumption.
Qed.
Lemma replace_printable c : printable c -> printable (replace_included_headers "concat.h" c).
Proof. intros [A B C D E]. constructor; assumption. Qed.
Lemma reread_printable c : printable c -> cf_allowlist c <> ASpecific [] -> parsed (reread c) -> printable (reread c).
Proof.
  intros P NE PR. pose proof (parsed_printable _ PR) as Q. unfold confirm_complete in Q. destruct (cf_allowlist (reread c)) as [l| |l] eqn:E; [|exact Q|exact Q].
  exfalso. unfold reread in E. cbn in E. destruct (cf_allowlist c) as [m| |m] eqn:X; [exact (pr_allow c P m X)|discriminate E|].
  cbn in E. destruct (items m) eqn:I; [|discriminate E]. destruct (namespaces m) eqn:N; [|discriminate E]. apply NE. f_equal. apply no_entries; assumption.
Qed.

(** The engine writes a case, for any macro, from which the tool makes a macro which includes the preprocessed header and otherwise means the same, unless the macro
    asks for nothing to be generated. *)
Theorem c94_repro : forall ts c pre, parse_config default_config ts = ROk c -> cf_allowlist (confirm_complete c) <> ASpecific [] ->
  exists case out c', repro_of (confirm_complete c) pre = Done case /\ rp_header case = pre
    /\ rewrite_config (rp_config case) = Done out /\ parse_config default_config out = ROk c'
    /\ cf_inclusions c' = ["concat.h"]
    /\ same_config (replace_included_headers "concat.h" (confirm_complete c)) (confirm_complete c').
Proof.
  intros ts c pre H NE. apply parsed_config, parsed_printable in H. destruct (round_trip _ H) as (ts1 & T1 & P1).
  pose proof (parsed_config _ _ P1) as PR. pose proof (reread_printable _ H NE PR) as Q. pose proof (replace_printable _ Q) as R.
  destruct (round_trip _ R) as (ts2 & T2 & P2). exists (ReproCase ts1 pre), ts2, (reread (replace_included_headers "concat.h" (reread (confirm_complete c)))).
  unfold repro_of. rewrite T1. split; [reflexivity|]. split; [reflexivity|]. cbn [rp_config]. unfold rewrite_config. rewrite P1, T2.
  split; [reflexivity|]. split; [exact P2|]. split; [reflexivity|].
  pose proof (reread_same _ H) as S1. pose proof (reread_same _ R) as S2.
  assert (E : confirm_complete (reread (confirm_complete c)) = reread (confirm_complete c)).
  { unfold confirm_complete at 1. destruct (cf_allowlist (reread (confirm_complete c))) eqn:X; [exfalso; exact (pr_allow _ Q _ X)|reflexivity|reflexivity]. }
  rewrite E in S1. clear - S1 S2. set (d := confirm_complete c) in *. set (e := reread d) in *.
  destruct S1 as [A1 A2 A3 A4 A5 A6 A7 A8 A9 A10 A11 A12 A13 A14 A15 A16 A17]. destruct S2 as [B1 B2 B3 B4 B5 B6 B7 B8 B9 B10 B11 B12 B13 B14 B15 B16 B17].
  constructor; try (etransitivity; [|eassumption]; cbn; assumption).
  - exact B1.
  - exact (same_allow_trans _ _ _ A6 B6).
  - intros k. rewrite <- B16. cbn. apply A16.
Qed.
Print Assumptions c94_repro.

(** The case of a macro which names nothing to generate, as one with only [concrete!], [subclass!] or [extern_rust_function!] directives, ends the tool in a panic, and
    only such a case does: an empty list is not printed, and is not completed after it was read. *)
Theorem c94_repro_empty : forall ts c pre case, parse_config default_config ts = ROk c -> repro_of (confirm_complete c) pre = Done case ->
  (rewrite_config (rp_config case) = Panics <-> cf_allowlist (confirm_complete c) = ASpecific []).
Proof.
  intros ts c pre case H R. split.
  - intros P. destruct (cf_allowlist (confirm_complete c)) as [l| |[|e l]] eqn:E; [| |reflexivity|].
    1: { exfalso. apply parsed_config, parsed_printable in H. exact (pr_allow _ H _ E). }
    all: exfalso; destruct (c94_repro ts c pre H) as (case' & out & c' & R' & _ & W & _); [rewrite E; discriminate|].
    all: rewrite R in R'; injection R' as <-; rewrite P in W; discriminate W.
  - intros E. apply parsed_config, parsed_printable in H. destruct (round_trip _ H) as (ts1 & T1 & P1). unfold repro_of in R. rewrite T1 in R. injection R as <-.
    cbn [rp_config]. unfold rewrite_config. rewrite P1. unfold reread. rewrite E. reflexivity.
Qed.
Print Assumptions c94_repro_empty.

(** Such a macro is accepted, and its case is written: *)
Theorem c94_repro_refuted : exists ts c case, parse_config default_config ts = ROk c /\ repro_of (confirm_complete c) "" = Done case
  /\ forall tmp clang_stdout, prepare tmp clang_stdout (InRepro case None) = Panics.
Proof.
  exists [TPound; TIdent "include"; TStr "a.h"; TIdent "subclass"; TBang; TGroup [TStr "Base"; TComma; TIdent "Mine"]].
  eexists _, _. split; [reflexivity|]. split; [reflexivity|]. intros tmp clang_stdout. reflexivity.
Qed.
Print Assumptions c94_repro_refuted.

(** The configuration of which a case is written has also the Rust types found in the file with [extern_rust_type], by their paths. The case of a macro in a file where one of them is in
    a module is written, but the tool refuses it. *)
Theorem c94_discovered_refuted : exists ts c case, parse_config default_config ts = ROk c
  /\ repro_of (set_rust_types (vpush ["m"; "T"]) (confirm_complete c)) "" = Done case
  /\ forall tmp clang_stdout r, prepare tmp clang_stdout (InRepro case None) <> Done r.
Proof.
  exists [TPound; TIdent "include"; TStr "a.h"; TIdent "generate"; TBang; TGroup [TStr "A"]].
  eexists _, _. split; [reflexivity|]. split; [reflexivity|]. intros tmp clang_stdout r. vm_compute. discriminate.
Qed.
Print Assumptions c94_discovered_refuted.

(** ** The script *)

(** Texts which bash takes as one word, as they are. *)
Definition plain_char (c : ascii) : bool := is_word c || existsb (Ascii.eqb c) ["-"; "."; "/"; "="; "+"; ":"; ","; "@"; "%"]%char.
Definition plain (s : string) : Prop := s <> "" /\ all_chars plain_char s = true.
(** The word [$(pwd)] as bash run in [dir] understands it, if [dir] is plain itself. *)
Definition expand (dir w : string) : string := if String.eqb w "$(pwd)" then dir else w.

Lemma plain_free c s : plain_char c = false -> plain s -> free_of c s.
Proof.
  intros N (_ & P). unfold free_of. revert P. induction s as [|d s IH]; cbn; [reflexivity|]. intros P. apply andb_prop in P as (A & B).
  rewrite (IH B), andb_true_r. apply negb_true_iff, Ascii.eqb_neq. intros ->. rewrite A in N. discriminate N.
Qed.
Lemma plain_expand dir s : plain s -> expand dir s = s.
Proof.
  intros (_ & P). unfold expand. destruct (String.eqb s "$(pwd)") eqn:E; [|reflexivity]. apply String.eqb_eq in E. subst s. discriminate P.
Qed.

(** The script generates as the sample run does: if no argument has a character which means something to bash, the words of its line are the command and the arguments of the
    sample run, with the current directory for the temporary one. *)
Theorem c94_same_command : forall clang a problem rs dir extra,
  plain (rd_gen_cmd a) -> plain rs -> Forall plain extra ->
  exists rest, split_at " "%char (codegen_line clang a problem rs extra)
     = ("(" +++ rd_gen_cmd a) :: format_gen_cmd rs "$(pwd)" extra ++ "2>&1" :: "&&" :: "cat" :: "autocxx-ffi-default-gen.rs" :: "&&" :: "cat" :: "autocxxgen*.h" :: "&&" :: rest
  /\ map (expand dir) (format_gen_cmd rs "$(pwd)" extra) = format_gen_cmd rs dir extra.
Proof.
  intros clang a problem rs dir extra PG PR PE.
  assert (FE : Forall (free_of " "%char) extra) by (eapply Forall_impl; [|exact PE]; intros x; apply plain_free; reflexivity).
  eexists. split.
  - unfold codegen_line.
    match goal with |- context [" 2>&1 && cat " +++ ?r] => set (R := r) end.
    replace ("(" +++ rd_gen_cmd a +++ " " +++ Base.join " " (format_gen_cmd rs "$(pwd)" extra) +++ " 2>&1 && cat " +++ R)
      with (("(" +++ rd_gen_cmd a) +++ String " "%char (Base.join " " (format_gen_cmd rs "$(pwd)" extra) +++ String " "%char ("2>&1 && cat " +++ R)))
      by (rewrite !sapp_assoc; reflexivity).
    rewrite split_sep by (apply free_app; [reflexivity|apply plain_free; [reflexivity|exact PG]]).
    rewrite split_words; [|discriminate|].
    + do 2 f_equal. change ("2>&1 && cat " +++ R) with ("2>&1" +++ String " "%char ("&&" +++ String " "%char ("cat" +++ String " "%char R))).
      rewrite !split_sep by reflexivity. do 3 f_equal. subst R. unfold script_rs.
      match goal with |- context [" && cat autocxxgen*.h && " +++ ?r] => set (R := r) end.
      change (" && cat autocxxgen*.h && " +++ R) with (String " "%char ("&&" +++ String " "%char ("cat" +++ String " "%char ("autocxxgen*.h" +++ String " "%char ("&&" +++ String " "%char R))))).
      rewrite !split_sep by reflexivity. reflexivity.
    + unfold format_gen_cmd. repeat (constructor; [first [reflexivity | apply plain_free; [reflexivity|assumption]]|]). exact FE.
  - unfold format_gen_cmd. rewrite map_app. cbn [map]. rewrite (plain_expand dir rs PR). cbn. do 9 f_equal.
    induction PE as [|x l PX PL IH]; [reflexivity|]. inversion FE; subst. cbn. rewrite (plain_expand dir x PX), IH by assumption. reflexivity.
Qed.
Print Assumptions c94_same_command.

Lemma compile_words clang file extra : plain clang -> plain file -> Forall plain extra ->
  split_at " "%char (make_compile_step clang true file extra) = clang :: ["-x"; "c++"; "-std=c++14"; "-DBINDGEN"; "-I."] ++ extra ++ ["-c"; file].
Proof.
  intros PC PF PE. unfold make_compile_step.
  change (clang +++ " " +++ Base.join " " (make_clang_args ["."] extra) +++ " -c " +++ file)
    with (clang +++ String " "%char (Base.join " " (make_clang_args ["."] extra) +++ String " "%char ("-c" +++ String " "%char file))).
  rewrite split_sep by (apply plain_free; [reflexivity|exact PC]). rewrite split_words; [|discriminate|].
  - rewrite split_sep by reflexivity. rewrite split_plain by (apply (plain_free " "%char); [reflexivity|exact PF]).
    unfold make_clang_args. cbn. reflexivity.
  - unfold make_clang_args. cbn. repeat (constructor; [reflexivity|]). eapply Forall_impl; [|exact PE]. intros x. apply plain_free. reflexivity.
Qed.
Lemma compile_no_lf clang b file extra : plain clang -> plain file -> Forall plain extra -> no_lf (make_compile_step clang b file extra).
Proof.
  intros PC PF PE. unfold make_compile_step. destruct b; [|reflexivity]. unfold make_clang_args.
  assert (FE : Forall (free_of LF) extra) by (eapply Forall_impl; [|exact PE]; intros x; apply plain_free; reflexivity).
  apply free_app; [apply plain_free; [reflexivity|exact PC]|]. apply free_app; [reflexivity|]. apply free_app.
  - apply free_join; [reflexivity|]. cbn. repeat (constructor; [reflexivity|]). exact FE.
  - apply free_app; [reflexivity|apply plain_free; [reflexivity|exact PF]].
Qed.

(** The lines of the script: the header is compiled first, unless that was not wanted, then moved aside and included by one with a guard, and put back at the end; in between is the
    line of the generation. The lines which compile have the arguments with which the engine calls clang. *)
Theorem c94_script : forall clang a problem rs extra,
  plain clang -> plain (rd_gen_cmd a) -> plain (rd_rustc a) -> Forall plain (rd_rlibs a) -> plain rs -> Forall plain extra -> (forall p, problem = Some p -> no_lf p) ->
  exists pre guard,
    split_at LF (test_script clang a problem rs extra)
    = ["#!/bin/bash"; "set -e"; "echo Precompile"; pre; "echo Move"; "mv concat.h concat-body.h"; guard; "echo Codegen";
       codegen_line clang a problem rs extra; "echo Remove"; "rm concat.h"; "echo Swap back"; "mv concat-body.h concat.h"; "echo Done"; ""]
  /\ (rd_no_precompile a = false -> split_at " "%char pre = clang :: ["-x"; "c++"; "-std=c++14"; "-DBINDGEN"; "-I."] ++ extra ++ ["-c"; "concat.h"])
  /\ (rd_no_precompile a = true -> starts_with "echo " pre = true)
  /\ (rd_no_postcompile a = false -> exists before after, codegen_line clang a problem rs extra = before +++ " && " +++ after
        /\ exists step filter, after = step +++ " 2>&1) " +++ filter
             /\ split_at " "%char step = clang :: ["-x"; "c++"; "-std=c++14"; "-DBINDGEN"; "-I."] ++ extra ++ ["-c"; "gen0.cc"]
             /\ forall p, problem = Some p -> contains p filter = true /\ starts_with "| grep -q " filter = true).
Proof.
  intros clang a problem rs extra PC PG PRU PRL PR PE PP.
  assert (PCH : plain "concat.h") by (split; [discriminate|reflexivity]). assert (PGC : plain "gen0.cc") by (split; [discriminate|reflexivity]).
  assert (FE : Forall (free_of LF) extra) by (eapply Forall_impl; [|exact PE]; intros x; apply plain_free; reflexivity).
  assert (RN : no_lf (rustc_step a)).
  { unfold rustc_step. destruct (rd_no_rustc a); [reflexivity|]. cbn [negb]. apply free_app; [apply plain_free; [reflexivity|exact PRU]|].
    apply free_app; [reflexivity|]. apply free_app; [|reflexivity]. apply free_join; [reflexivity|]. apply Forall_forall. intros x I. apply in_map_iff in I as (l & <- & I).
    apply free_app; [reflexivity|]. apply plain_free; [reflexivity|]. rewrite Forall_forall in PRL. exact (PRL l I). }
  assert (CN : no_lf (codegen_line clang a problem rs extra)).
  { unfold codegen_line. apply free_app; [reflexivity|]. apply free_app; [apply plain_free; [reflexivity|exact PG]|]. apply free_app; [reflexivity|].
    apply free_app.
    { apply free_join; [reflexivity|]. unfold format_gen_cmd. repeat (constructor; [first [reflexivity | apply plain_free; [reflexivity|assumption]]|]). exact FE. }
    do 3 (apply free_app; [reflexivity|]). apply free_app; [exact RN|]. apply free_app; [reflexivity|].
    apply free_app; [apply compile_no_lf; assumption|]. apply free_app; [reflexivity|]. destruct problem as [p|]; [|reflexivity].
    apply free_app; [reflexivity|]. apply free_app; [reflexivity|]. apply free_app; [apply (PP p eq_refl)|]. reflexivity. }
  eexists _, _. split; [|split; [|split]].
  - unfold test_script. apply split_join; [discriminate|].
    repeat (constructor; [first [reflexivity | exact CN | apply compile_no_lf; assumption]|]). constructor.
  - intros N. rewrite N. apply compile_words; assumption.
  - intros N. rewrite N. reflexivity.
  - intros N. unfold codegen_line. rewrite N. cbn [negb].
    exists ("(" +++ rd_gen_cmd a +++ " " +++ Base.join " " (format_gen_cmd rs "$(pwd)" extra) +++ " 2>&1 && cat " +++ script_rs +++ " && cat autocxxgen*.h && " +++ rustc_step a).
    eexists. split; [rewrite !sapp_assoc; reflexivity|]. eexists _, _. split; [reflexivity|]. split; [apply compile_words; assumption|].
    intros p ->. split; [|reflexivity]. apply contains_spec. exists ("| grep -q " +++ quote). eexists. rewrite !sapp_assoc. reflexivity.
Qed.
Print Assumptions c94_script.

(** The words of a line: bash drops what is empty between blanks. *)
Definition words (s : string) : list string := filter (fun w => negb (String.eqb w "")) (split_at " "%char s).
Lemma words_sep x r : free_of " "%char x -> x <> "" -> words (x +++ String " "%char r) = x :: words r.
Proof.
  intros F N. unfold words. rewrite split_sep by exact F. cbn [filter]. destruct (String.eqb x "") eqn:E; [|reflexivity]. apply String.eqb_eq in E. contradiction.
Qed.
Lemma words_blank r : words (String " "%char r) = words r.
Proof. unfold words. change (String " "%char r) with ("" +++ String " "%char r). rewrite split_sep by reflexivity. reflexivity. Qed.
Lemma words_dirs l r : Forall plain l -> words (Base.join " " (map (fun p => " -L" +++ p) l) +++ String " "%char r) = map (fun p => "-L" +++ p) l ++ words r.
Proof.
  induction 1 as [|p l PP PL IH]; [apply words_blank|].
  assert (W : forall t, words ((" -L" +++ p) +++ String " "%char t) = ("-L" +++ p) :: words t).
  { intros t. change ((" -L" +++ p) +++ String " "%char t) with (String " "%char (("-L" +++ p) +++ String " "%char t)). rewrite words_blank. apply words_sep; [|discriminate].
    apply free_app; [reflexivity|apply plain_free; [reflexivity|exact PP]]. }
  destruct l as [|q l]; [exact (W r)|].
  change (Base.join " " (map (fun p => " -L" +++ p) (p :: q :: l))) with ((" -L" +++ p) +++ String " "%char (Base.join " " (map (fun p => " -L" +++ p) (q :: l)))).
  rewrite sapp_assoc. change (String " "%char (Base.join " " (map (fun p => " -L" +++ p) (q :: l))) +++ String " "%char r)
    with (String " "%char (Base.join " " (map (fun p => " -L" +++ p) (q :: l)) +++ String " "%char r)).
  rewrite W, IH. reflexivity.
Qed.

(** Between the generation and the compilation of the C++, the script has rustc compile the bindings, with the directories of the libraries, unless that was not wanted. *)
Theorem c94_rustc : forall clang a problem rs extra, plain (rd_rustc a) -> Forall plain (rd_rlibs a) ->
  exists before step after, codegen_line clang a problem rs extra = before +++ " && cat autocxxgen*.h && " +++ step +++ " && " +++ after
    /\ (rd_no_rustc a = false -> words step
         = rd_rustc a :: ["--extern"; "cxx"; "--extern"; "autocxx"] ++ map (fun p => "-L" +++ p) (rd_rlibs a)
           ++ ["--crate-type"; "rlib"; "--emit=metadata"; "--edition=2021"; "autocxx-ffi-default-gen.rs"; "2>&1"])
    /\ (rd_no_rustc a = true -> hd "" (words step) = "echo").
Proof.
  intros clang a problem rs extra PR PL. unfold codegen_line.
  exists ("(" +++ rd_gen_cmd a +++ " " +++ Base.join " " (format_gen_cmd rs "$(pwd)" extra) +++ " 2>&1 && cat " +++ script_rs), (rustc_step a).
  eexists. split; [rewrite !sapp_assoc; reflexivity|]. unfold rustc_step. split; intros N; rewrite N; cbn [negb]; [|reflexivity].
  change (rd_rustc a +++ " --extern cxx --extern autocxx " +++ Base.join " " (map (fun p => " -L" +++ p) (rd_rlibs a)) +++ " --crate-type rlib --emit=metadata --edition=2021 " +++ script_rs +++ " 2>&1")
    with (rd_rustc a +++ String " "%char ("--extern" +++ String " "%char ("cxx" +++ String " "%char ("--extern" +++ String " "%char ("autocxx" +++ String " "%char (
      Base.join " " (map (fun p => " -L" +++ p) (rd_rlibs a)) +++ String " "%char ("--crate-type rlib --emit=metadata --edition=2021 " +++ script_rs +++ " 2>&1"))))))).
  rewrite words_sep; [|apply plain_free; [reflexivity|exact PR]|exact (proj1 PR)]. cbn [app].
  rewrite !words_sep by (reflexivity || discriminate). rewrite words_dirs by exact PL. reflexivity.
Qed.
Print Assumptions c94_rustc.

(** An argument for clang with a blank in it, one argument of the sample run, is several of the script. *)
Theorem c94_blank_refuted : exists a rs extra, plain (rd_gen_cmd a) /\ plain rs /\ (forall x, In x extra -> x <> "") /\
  forall clang problem dir words, plain dir ->
    split_at " "%char (codegen_line clang a problem rs extra) = ("(" +++ rd_gen_cmd a) :: words ->
    firstn (List.length (format_gen_cmd rs dir extra)) (map (expand dir) words) <> format_gen_cmd rs dir extra.
Proof.
  exists (ReduceArgs (InFile [] [] ["a.h"] []) "p" "creduce" None "autocxx-gen" "rustc" [] [] [] true true true "no"), "/t/input.rs", ["-DNAME=two words"].
  split; [split; [discriminate|reflexivity]|]. split; [split; [discriminate|reflexivity]|]. split; [intros x [<-|[]]; discriminate|].
  intros clang problem dir words PD E M.
  assert (X : exists t, split_at " "%char (codegen_line clang (ReduceArgs (InFile [] [] ["a.h"] []) "p" "creduce" None "autocxx-gen" "rustc" [] [] [] true true true "no") problem "/t/input.rs" ["-DNAME=two words"])
                 = "(autocxx-gen" :: "-o" :: "$(pwd)" :: "-I" :: "$(pwd)" :: "/t/input.rs" :: "--gen-rs-include" :: "--gen-cpp" :: "--suppress-system-headers" :: "--" :: "-DNAME=two" :: "words" :: t).
  { destruct problem as [p|]; eexists; cbn; reflexivity. }
  destruct X as (t & X). rewrite X in E. injection E as <-. cbn in M. discriminate M.
Qed.
Print Assumptions c94_blank_refuted.

(** ** What the script sees *)

Lemma contains_l p a b : contains p a = true -> contains p (a +++ b) = true.
Proof. rewrite !contains_spec. intros (x & y & ->). exists x, (y +++ b). rewrite !sapp_assoc. reflexivity. Qed.
Lemma contains_r p a b : contains p b = true -> contains p (a +++ b) = true.
Proof. rewrite !contains_spec. intros (x & y & ->). exists (a +++ x), y. rewrite !sapp_assoc. reflexivity. Qed.

(** A header which does not compile is never interesting. If the macro has no name, the problem is found wherever it shows: in what the generator prints, in the bindings and
    headers it makes, in what rustc says of the bindings and in what clang says of the C++ if all before went well. *)
Theorem c94_seen : forall c p w, cf_mod_name c = None ->
  (at_precompile w = false -> interesting p w = false)
  /\ (at_precompile w = true -> contains p (snd (at_gen w)) = true -> interesting p w = true)
  /\ forall t, at_precompile w = true -> fst (at_gen w) = true -> sget (get_rs_filename c) (at_files w) = Some t ->
       (contains p t = true -> interesting p w = true)
       /\ (contains p (snd (at_headers w)) = true -> interesting p w = true)
       /\ (fst (at_headers w) = true ->
             (contains p (snd (at_rustc w)) = true -> interesting p w = true)
             /\ (fst (at_rustc w) = true -> contains p (snd (at_post w)) = true -> interesting p w = true)).
Proof.
  intros c p [pre [g go] files [h ho] [r ro] [s so]] N. unfold interesting, get_rs_filename. rewrite N.
  change ("autocxx-" +++ "ffi-default" +++ "-gen.rs") with script_rs. cbn [at_precompile at_gen at_files at_headers at_rustc at_post fst snd chain_output].
  split; [intros ->; reflexivity|]. split; [intros -> C; apply (contains_l _ _ _ C)|]. intros t -> -> G. unfold cat_file. rewrite G. cbn [andb].
  split; [intros C; apply contains_r, contains_l; exact C|]. split; [intros C; apply contains_r, contains_r, contains_l; exact C|]. intros ->.
  split; [intros C; apply contains_r, contains_r, contains_r, contains_l; exact C|].
  intros -> C. apply contains_r, contains_r, contains_r, contains_r, contains_l. exact C.
Qed.
Print Assumptions c94_seen.

(** If the macro was given a name by [name!], the bindings are in another file than the one which the script shows and compiles: only what the generator itself prints can be
    interesting, and neither the bindings nor the compilers are ever looked at. *)
Theorem c94_named_refuted : exists c, cf_mod_name c <> None /\
  forall p w, (forall n, In n (map fst (at_files w)) -> n = get_rs_filename c \/ ends_with ".h" n = true \/ ends_with ".cc" n = true) ->
    interesting p w = true -> contains p (snd (at_gen w)) = true.
Proof.
  exists (set_mod_name (Some "mine") default_config). split; [discriminate|].
  intros p [pre [g go] files [h ho] [r ro] [s so]] F. unfold interesting. cbn [at_precompile at_gen at_files at_headers at_rustc at_post fst snd chain_output] in *.
  assert (S : sget script_rs files = None).
  { clear - F. induction files as [|[n t] files IH]; [reflexivity|]. cbn [sget]. destruct (String.eqb script_rs n) eqn:E.
    - apply String.eqb_eq in E. subst n. destruct (F script_rs) as [X|[X|X]]; [left; reflexivity|discriminate X|discriminate X|discriminate X].
    - apply IH. intros m I. apply F. right. exact I. }
  unfold cat_file. rewrite S. intros H. apply andb_prop in H as (_ & H). destruct g; cbn in H; rewrite ?app_empty_r in H; exact H.
Qed.
Print Assumptions c94_named_refuted.

(** ** The whole run *)

Definition deposits (path : string) (x : action) : Prop := match x with Write p _ => p = path | Copy _ p => p = path | _ => False end.

(** If the tool comes to its end, creduce was run once, last but for handing over the result, on the header and with a script, written before, which looks for the problem; the user's
    arguments reach creduce, the generator and clang; cxx's guards are defined if asked for or, by default, if the header has the classes of cxx.h in it; and the header was not changed after it was prepared. *)
Theorem c94_run : forall tmp clang cxx_header path_exists clang_stdout supports a acts,
  do_run tmp clang cxx_header path_exists clang_stdout supports a = Done acts ->
  exists before text extra more deliver,
    prepare tmp clang_stdout (rd_input a) = Done (firstn (List.length acts - 7) acts, text)
    /\ acts = before ++ [Run (rd_creduce a) (under tmp "test.sh" :: under tmp "concat.h" :: rd_creduce_args a ++ more) None; deliver]
    /\ deliver = match rd_output a with Some o => Copy (under tmp "concat.h") o | None => Print (under tmp "concat.h") end
    /\ In (Write (under tmp "test.sh") (Text (test_script clang a (Some (rd_problem a)) (under tmp "input.rs") extra))) before
    /\ In (Run (rd_gen_cmd a) (format_gen_cmd (under tmp "input.rs") tmp extra) None) before
    /\ (exists suppressions, extra = rd_clang_args a ++ suppressions
          /\ (suppressions <> [] -> suppressions = get_cxx_suppressions cxx_header)
          /\ (rd_suppress a = "yes" -> suppressions = get_cxx_suppressions cxx_header)
          /\ (rd_suppress a = "no" -> suppressions = [])
          /\ (rd_suppress a = "auto" -> contains "class Box" text = true /\ contains "class Vec" text = true /\ contains "class Slice" text = true -> suppressions = get_cxx_suppressions cxx_header)
          /\ (rd_suppress a = "auto" -> suppressions = [] \/ (contains "class Box" text = true /\ contains "class Vec" text = true /\ contains "class Slice" text = true)))
    /\ (forall x, In x (skipn (List.length acts - 7) before) -> ~ deposits (under tmp "concat.h") x)
    /\ path_exists (rd_gen_cmd a) = true.
Proof.
  intros tmp clang cxx_header path_exists clang_stdout supports a acts H. unfold do_run in H.
  destruct (prepare tmp clang_stdout (rd_input a)) as [[prep text]|e|] eqn:P; try discriminate H.
  destruct (extra_clang_args cxx_header a text) as [extra|e|] eqn:X; try discriminate H.
  destruct (path_exists (rd_gen_cmd a)) eqn:G; [|discriminate H]. cbn [negb] in H. injection H as <-.
  assert (L : List.length (prep ++ [Run (rd_gen_cmd a) (format_gen_cmd (under tmp "input.rs") tmp extra) None;
      Write (under (under tmp "demo-interestingness-test") "test-demo.sh") (Text (test_script clang a None (under tmp "input.rs") extra));
      Copy (under tmp "concat.h") (under (under tmp "demo-interestingness-test") "concat.h");
      Run (under (under tmp "demo-interestingness-test") "test-demo.sh") [] (Some (under tmp "demo-interestingness-test"));
      Write (under tmp "test.sh") (Text (test_script clang a (Some (rd_problem a)) (under tmp "input.rs") extra));
      Run (rd_creduce a) (creduce_args supports (under tmp "test.sh") (under tmp "concat.h") (rd_creduce_args a)) None;
      match rd_output a with None => Print (under tmp "concat.h") | Some o => Copy (under tmp "concat.h") o end]) - 7 = List.length prep)
    by (rewrite app_length; cbn [List.length]; lia).
  rewrite L. clear L.
  eexists (prep ++ [_; _; _; _; _]), text, extra, (if supports then ["--remove-pass"; "pass_line_markers"; "*"] else ["--skip-initial-passes"]), _.
  split; [rewrite firstn_app, firstn_all, Nat.sub_diag; cbn [firstn]; rewrite app_nil_r; reflexivity|].
  split; [rewrite <- app_assoc; unfold creduce_args; cbn [app]; reflexivity|]. split; [destruct (rd_output a); reflexivity|].
  split; [apply in_or_app; right; do 4 right; left; reflexivity|]. split; [apply in_or_app; right; left; reflexivity|]. split; [|split; [|reflexivity]].
  - unfold extra_clang_args in X. destruct (String.eqb (rd_suppress a) "yes") eqn:Y.
    { apply String.eqb_eq in Y. rewrite Y. injection X as <-. eexists. split; [reflexivity|]. repeat split; try discriminate; auto. }
    destruct (String.eqb (rd_suppress a) "no") eqn:Z.
    { apply String.eqb_eq in Z. rewrite Z. injection X as <-. eexists. split; [reflexivity|]. repeat split; try discriminate; try contradiction; auto. }
    destruct (String.eqb (rd_suppress a) "auto") eqn:U; [|discriminate X]. apply String.eqb_eq in U. rewrite U. injection X as <-. eexists. split; [reflexivity|].
    assert (D : detect_cxx_h text = true <-> contains "class Box" text = true /\ contains "class Vec" text = true /\ contains "class Slice" text = true).
    { unfold detect_cxx_h. cbn [forallb]. rewrite !andb_true_iff. tauto. }
    destruct (detect_cxx_h text).
    + split; [auto|]. split; [discriminate|]. split; [discriminate|]. split; [auto|]. intros _. right. apply D. reflexivity.
    + split; [intros N; destruct (N eq_refl)|]. split; [discriminate|]. split; [auto|]. split; [intros _ C; apply D in C; discriminate C|auto].
  - intros x. rewrite skipn_app, skipn_all, Nat.sub_diag. cbn [skipn app].
    assert (I1 : forall d n m, under d n = under d m -> n = m) by (intros d n m E; apply sapp_inj_l in E; injection E as E; exact E).
    assert (I2 : forall d n m, under (under d n) m = under d "concat.h" -> String.length n + String.length m < 8).
    { intros d n m E. unfold under in E. rewrite !sapp_assoc in E. apply sapp_inj_l in E. injection E as E. apply (f_equal String.length) in E. rewrite !slen_app in E. cbn in E. lia. }
    intros [<-|[<-|[<-|[<-|[<-|[]]]]]]; cbn [deposits]; [intros []| | |intros []|].
    + intros E. apply I2 in E. cbn in E. lia.
    + intros E. apply I2 in E. cbn in E. lia.
    + intros E. apply I1 in E. discriminate E.
Qed.
Print Assumptions c94_run.

(** ** A case *)

Definition args94 : reduce_args :=
  ReduceArgs (InFile ["inc"] ["DBG"] ["a.h"; "b.h"] ["generate!(""A"")"]) "panicked" "creduce" (Some "out.h") "/bin/autocxx-gen" "rustc" ["/l1"; "/l2"]
             ["-std=c++17"] ["--n"; "8"] false false false "auto".
Definition header94 : string := "#ifndef CXXBRIDGE1_RUST_STR" +++ nl +++ "#define CXXBRIDGE1_RUST_STR" +++ nl +++ "xCXXBRIDGE1_NO CXXBRIDGE1_ CXXBRIDGE1_RUST_BOX;".
Definition ran94 : outcome (list action) := Eval vm_compute in
  do_run "/tmp/r" "clang++" header94 (fun _ => true) (fun _ => Some "class Box; class Vec; class Slice;") true args94.

Example c94_case :
  get_cxx_suppressions header94 = ["-DCXXBRIDGE1_RUST_STR"; "-DCXXBRIDGE1_RUST_BOX"]
  /\ (exists acts, ran94 = Done acts /\ List.length acts = 11
       /\ In (Run "/bin/autocxx-gen" ["-o"; "/tmp/r"; "-I"; "/tmp/r"; "/tmp/r/input.rs"; "--gen-rs-include"; "--gen-cpp"; "--suppress-system-headers"; "--";
                                      "-std=c++17"; "-DCXXBRIDGE1_RUST_STR"; "-DCXXBRIDGE1_RUST_BOX"] None) acts
       /\ In (Run "creduce" ["/tmp/r/test.sh"; "/tmp/r/concat.h"; "--n"; "8"; "--remove-pass"; "pass_line_markers"; "*"] None) acts)
  /\ plain (rd_gen_cmd args94) /\ plain "/tmp/r/input.rs" /\ Forall plain ["-std=c++17"; "-DCXXBRIDGE1_RUST_STR"; "-DCXXBRIDGE1_RUST_BOX"]
  /\ plain "clang++" /\ plain (rd_rustc args94) /\ Forall plain (rd_rlibs args94)
  /\ interesting "panicked" (Attempt true (true, "") [("autocxx-ffi-default-gen.rs", "mod ffi {}")] (true, "") (false, "thread panicked") (true, "")) = true
  /\ interesting "panicked" (Attempt true (true, "") [("autocxx-mine-gen.rs", "mod mine {}")] (true, "") (false, "thread panicked") (true, "")) = false
  /\ (exists c case out, parse_config default_config [TPound; TIdent "include"; TStr "a.h"; TIdent "generate"; TBang; TGroup [TStr "A"]] = ROk c
       /\ cf_allowlist (confirm_complete c) <> ASpecific []
       /\ repro_of (confirm_complete c) "struct A {};" = Done case
       /\ rewrite_config (rp_config case) = Done out
       /\ out = [TPound; TIdent "include"; TStr "concat.h"; TIdent "generate"; TBang; TGroup [TStr "A"]]).
Proof.
  split; [vm_compute; reflexivity|]. split.
  { eexists. split; [reflexivity|]. split; [reflexivity|]. split; [do 4 right; left; reflexivity|do 9 right; left; reflexivity]. }
  repeat (split; [first [reflexivity | split; [discriminate|reflexivity] | repeat (constructor; [split; [discriminate|reflexivity]|]); constructor]|]).
  eexists _, _, _. split; [reflexivity|]. split; [discriminate|]. split; [reflexivity|]. split; reflexivity.
Qed.
