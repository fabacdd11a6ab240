(** C93: what the preprocessor of the book does with the text and the code examples. *)
From Verif Require Import Base MdBookModel MdBookProofs.
From Coq Require Import Ascii.

(** ** Lines *)
(** Text without carriage returns consists of its lines, but for a line feed at its end. *)
Theorem c93_lines : forall s, all_chars (fun c => negb (Ascii.eqb c CR)) s = true ->
  s = join (str_lines s) \/ s = join (str_lines s) +++ newline.
Proof.
  induction s as [|c s IH]; intros H; [left; reflexivity|]. cbn in H. apply andb_true_iff in H as [H1 H2]. apply negb_true_iff in H1. specialize (IH H2).
  cbn [str_lines]. rewrite H1. cbn [andb]. destruct (Ascii.eqb c LF) eqn:C.
  - apply Ascii.eqb_eq in C. subst c. destruct (str_lines s) as [|l ls] eqn:E.
    + right. destruct IH as [->| ->]; [reflexivity|]. cbn in E. discriminate E.
    + unfold join in *. rewrite concat_cons. destruct IH as [IH|IH]; [left|right]; change (newline +++ ?z) with (String LF z); cbn [String.append]; rewrite IH at 1; reflexivity.
  - destruct (str_lines s) as [|l ls] eqn:E.
    + left. destruct IH as [->| ->]; [reflexivity|]. cbn in E. discriminate E.
    + unfold join in *. destruct IH as [IH|IH]; rewrite IH; [left|right]; destruct ls; reflexivity.
Qed.
Print Assumptions c93_lines.
Lemma lines_no_lf s : Forall no_lf (str_lines s).
Proof.
  induction s as [|c s IH]; cbn; [constructor|]. destruct (Ascii.eqb c LF) eqn:E; [constructor; [reflexivity|exact IH]|]. destruct (_ && _); [exact IH|].
  destruct (str_lines s) as [|h t]; [repeat constructor; unfold no_lf; cbn; rewrite E; reflexivity|]. inversion IH; subst. constructor; [unfold no_lf in *; cbn; rewrite E; assumption|assumption].
Qed.

(** ** Code blocks *)
Definition fence (s : string) : Prop := exists r, s = "```" +++ r.
(** [f] is one of the words, with commas between, behind the fence. *)
Definition flagged (f s : string) : Prop := exists r a b, s = "```" +++ r /\ "," +++ r +++ "," = a +++ "," +++ f +++ "," +++ b.

Lemma split_sep sep x y : split_at sep (x +++ String sep y) = split_at sep x ++ split_at sep y.
Proof.
  destruct (split_app sep x (String sep y)) as (A & p & h & R & X & Y & ->). cbn in Y. rewrite Ascii.eqb_refl in Y. injection Y as <- <-.
  rewrite X, app_empty_r, <- app_assoc. reflexivity.
Qed.
Fixpoint led (sep : ascii) (l : list string) : string := match l with [] => "" | x :: r => String sep (x +++ led sep r) end.
Lemma led_app sep a b : led sep (a ++ b) = led sep a +++ led sep b.
Proof. induction a as [|x a IH]; cbn; [reflexivity|]. rewrite IH, sapp_assoc. reflexivity. Qed.
Lemma led_split sep r : String sep r = led sep (split_at sep r).
Proof.
  induction r as [|c r IH]; [reflexivity|]. cbn [split_at]. destruct (Ascii.eqb c sep) eqn:E.
  - apply Ascii.eqb_eq in E. subst c. cbn. rewrite <- IH. reflexivity.
  - destruct (split_cons sep r) as (h & t & S). rewrite S in *. cbn in *. injection IH as ->. reflexivity.
Qed.
Lemma led_comma sep B : exists b, led sep B +++ String sep "" = String sep b.
Proof. destruct B as [|x B]; cbn; eauto. Qed.
Lemma split_word sep f r : all_chars (fun c => negb (Ascii.eqb c sep)) f = true ->
  (In f (split_at sep r) <-> exists a b, String sep (r +++ String sep "") = a +++ String sep (f +++ String sep b)).
Proof.
  intros NC. split.
  - intros I. apply in_split in I as (A & B & S). destruct (led_comma sep B) as (b & Hb). exists (led sep A), b.
    change (String sep (r +++ String sep "")) with (String sep r +++ String sep ""). rewrite led_split, S, led_app. cbn. rewrite !sapp_assoc. cbn. rewrite sapp_assoc, Hb. reflexivity.
  - intros (a & b & X). assert (E : split_at sep (String sep (r +++ String sep "")) = split_at sep (a +++ String sep (f +++ String sep b))) by (rewrite X; reflexivity).
    rewrite !split_sep, (split_plain _ f NC) in E. cbn in E. rewrite Ascii.eqb_refl, split_sep in E. cbn in E.
    destruct (split_cons sep a) as (a0 & A & Sa). rewrite Sa in E. cbn in E. injection E as _ E. destruct (last_split sep b) as (B & b0 & Sb). rewrite Sb in E.
    change (A ++ f :: B ++ [b0]) with (A ++ (f :: B) ++ [b0]) in E. rewrite app_assoc in E. apply app_inj_tail in E as [-> _]. apply in_elt.
Qed.
Lemma smem_in f l : smem f l = true <-> In f l.
Proof. unfold smem. rewrite existsb_exists. split; [intros (x & I & E); apply String.eqb_eq in E; congruence|intros I; exists f; split; [exact I|apply String.eqb_refl]]. Qed.
Lemma flags_spec f r : all_chars (fun c => negb (Ascii.eqb c ",")) f = true -> (smem f (code_block_flags ("```" +++ r)) = true <-> flagged f ("```" +++ r)).
Proof.
  intros NC. rewrite smem_in. unfold code_block_flags. replace (String.substring 3 _ _) with r.
  - rewrite (split_word _ f r NC). unfold flagged. split.
    + intros (a & b & X). exists r, a, b. split; [reflexivity|exact X].
    + intros (r' & a & b & E & X). apply sapp_inj_l in E. subst r'. exists a, b. exact X.
  - cbn. rewrite Nat.sub_0_r. induction r as [|c r IH]; cbn; congruence.
Qed.
Lemma flagged_word f : all_chars (fun c => negb (Ascii.eqb c ",")) f = true -> f <> "" -> ~ flagged f "```".
Proof.
  intros NC N H. assert (H' : flagged f ("```" +++ "")) by exact H. apply (flags_spec f "" NC) in H'. cbn in H'. destruct f; [contradiction|discriminate H'].
Qed.

(** The kinds of lines. *)
Lemma recognize_misc s : ~ fence s <-> recognize_line s = LtMisc.
Proof.
  unfold recognize_line. destruct (starts_with "```" s) eqn:E.
  - apply starts_with_spec in E as (r & ->). split; [intros H; destruct H; exists r; reflexivity|]. cbn [andb].
    destruct r; [discriminate|]. replace (Nat.ltb 3 _) with true by (symmetry; apply Nat.ltb_lt; cbn; lia). destruct (smem _ _); discriminate.
  - cbn [andb]. split; [|intros _ (r & H)].
    + intros H. destruct (String.eqb s "```") eqn:Q; [|reflexivity]. apply String.eqb_eq in Q. subst s. discriminate E.
    + assert (X : starts_with "```" s = true) by (apply starts_with_spec; exists r; exact H). congruence.
Qed.
Lemma recognize_fence s : fence s -> s = "```" /\ recognize_line s = LtEnd \/
  s <> "```" /\ (flagged "autocxx" s /\ recognize_line s = LtAutocxx (code_block_flags s) \/ ~ flagged "autocxx" s /\ recognize_line s = LtStart).
Proof.
  intros (r & ->). destruct r as [|c r]; [left; split; reflexivity|]. right. split; [discriminate|]. unfold recognize_line.
  replace (starts_with _ _) with true by (symmetry; apply starts_with_spec; eauto). replace (Nat.ltb 3 _) with true by (symmetry; apply Nat.ltb_lt; cbn; lia). cbn [andb].
  pose proof (flags_spec "autocxx" (String c r) eq_refl) as F. destruct (smem "autocxx" _); [left|right]; (split; [|reflexivity]); intuition congruence.
Qed.

Section Chapters.
Variable parse_call : string -> option (list span).
Variable parse_file : string -> bool.
Variable file : string.
(** What comes of an example which starts at the line [n] with [s] and has the lines [body]: what is shown, and what is tested. *)
Definition example (n : nat) (s : string) (body o : list string) (t : list test_case) : Prop :=
  exists a b c more cpp hdr rs shown, parse_call (join body) = Some (a :: b :: c :: more) /\
    extract_span body a = Some cpp /\ extract_span body b = Some hdr /\ extract_span body c = Some rs /\
    o = ["#### C++ header:"; "```cpp"; unescape_quotes hdr; "```"] ++ shown ++ ["#### Rust:"; "```rust,noplayground"; escape_hexathorpes rs; "```"] /\
    (unescape_quotes cpp = "" \/ flagged "hidecpp" s -> shown = []) /\
    (unescape_quotes cpp <> "" -> ~ flagged "hidecpp" s -> shown = ["#### C++ implementation:"; "```cpp"; unescape_quotes cpp; "```"]) /\
    (flagged "nocompile" s -> t = []) /\
    (~ flagged "nocompile" s -> parse_file rs = true /\ t = [TestCase (unescape_quotes cpp) (unescape_quotes hdr) rs (MiniSpan file n)]).
(** The lines of a chapter from the line [n] on, counted from 1, what is shown of them, and what is tested. *)
Inductive chapter : nat -> list string -> list string -> list test_case -> Prop :=
| ch_end n : chapter n [] [] []
| ch_text n s r o t : ~ fence s -> chapter (S n) r o t -> chapter n (s :: r) (s :: o) t
| ch_other n s body r o t : fence s -> ~ flagged "autocxx" s -> Forall (fun x => ~ fence x) body -> chapter (n + List.length body + 2) r o t ->
    chapter n (s :: body ++ "```" :: r) (s :: body ++ "```" :: o) t
| ch_other_open n s body : fence s -> ~ flagged "autocxx" s -> Forall (fun x => ~ fence x) body -> chapter n (s :: body) (s :: body) []
| ch_ours n s body r o t o' t' : flagged "autocxx" s -> Forall (fun x => ~ fence x) body -> example n s body o' t' ->
    chapter (n + List.length body + 2) r o t -> chapter n (s :: body ++ "```" :: r) (o' ++ o) (t' ++ t)
| ch_ours_open n s body : flagged "autocxx" s -> Forall (fun x => ~ fence x) body -> chapter n (s :: body) [] [].

Notation run := (chapter_lines parse_call parse_file file).
Lemma misc_prefix (l : list string) : exists body rest, l = body ++ rest /\ Forall (fun x => ~ fence x) body /\ (rest = [] \/ exists x r, rest = x :: r /\ fence x).
Proof.
  induction l as [|x l IH]; [exists [], []; auto|]. destruct (recognize_line x) eqn:E.
  4:{ apply recognize_misc in E. destruct IH as (b & r & -> & F & R). exists (x :: b), r. split; [reflexivity|]. split; [constructor; assumption|exact R]. }
  all: exists [], (x :: l); split; [reflexivity|]; split; [constructor|]; right; exists x, l; split; [reflexivity|];
    unfold recognize_line in E; destruct (starts_with "```" x) eqn:S; [apply starts_with_spec in S as (r & ->); exists r; reflexivity|];
    cbn [andb] in E; destruct (String.eqb x "```") eqn:Q; try discriminate E; apply String.eqb_eq in Q; subst x; exists ""; reflexivity.
Qed.
Lemma run_other_open body : Forall (fun x => ~ fence x) body -> forall n, run n body StOther = Some (body, []).
Proof. induction 1 as [|x b F _ IH]; intros n; [reflexivity|]. cbn. apply recognize_misc in F. rewrite F, IH. reflexivity. Qed.
Lemma run_other body r : Forall (fun x => ~ fence x) body -> forall n, run n (body ++ "```" :: r) StOther =
  match run (n + List.length body + 1) r StStart with Some (o, t) => Some (body ++ "```" :: o, t) | None => None end.
Proof.
  induction 1 as [|x b F _ IH]; intros n; cbn.
  - change (recognize_line "```") with LtEnd. rewrite Nat.add_0_r, Nat.add_1_r. destruct (run (S n) r StStart) as [[o t]|]; reflexivity.
  - apply recognize_misc in F. rewrite F, IH. replace (S n + List.length b + 1) with (n + S (List.length b) + 1) by lia. destruct (run _ r StStart) as [[o t]|]; reflexivity.
Qed.
Lemma run_ours_open body flags : Forall (fun x => ~ fence x) body -> forall n acc, run n body (StOurs flags acc) = Some ([], []).
Proof. induction 1 as [|x b F _ IH]; intros n acc; [reflexivity|]. cbn. apply recognize_misc in F. rewrite F, IH. reflexivity. Qed.
Lemma run_ours body flags r : Forall (fun x => ~ fence x) body -> forall n acc, List.length acc <= n -> run n (body ++ "```" :: r) (StOurs flags acc) =
  match handle_code_block parse_call parse_file flags (acc ++ body) (MiniSpan file (n - List.length acc)) with
  | Some (o', t') => match run (n + List.length body + 1) r StStart with Some (o, t) => Some (o' ++ o, t' ++ t) | None => None end
  | None => None
  end.
Proof.
  induction 1 as [|x b F _ IH]; intros n acc L; cbn.
  - change (recognize_line "```") with LtEnd. rewrite app_nil_r, Nat.add_0_r, Nat.add_1_r. unfold minus. replace (Nat.leb _ _) with true by (symmetry; apply Nat.leb_le; exact L).
    destruct (handle_code_block _ _ _ _ _) as [[o' t']|]; [|reflexivity]. destruct (run (S n) r StStart) as [[o t]|]; reflexivity.
  - apply recognize_misc in F. rewrite F, IH by (rewrite app_length; cbn; lia). rewrite <- app_assoc, app_length. cbn [app List.length]. replace (S n - (List.length acc + 1)) with (n - List.length acc) by lia.
    replace (S n + List.length b + 1) with (n + S (List.length b) + 1) by lia. destruct (handle_code_block _ _ _ _ _) as [[o' t']|]; [|reflexivity]. destruct (run _ r StStart) as [[o t]|]; reflexivity.
Qed.
Lemma fence_cons s : flagged "autocxx" s -> fence s /\ s <> "```".
Proof. intros F. split; [destruct F as (r & a & b & -> & _); exists r; reflexivity|]. intros ->. revert F. apply flagged_word; [reflexivity|discriminate]. Qed.
Lemma handle_spec n s body o t : fence s ->
  (handle_code_block parse_call parse_file (code_block_flags s) body (MiniSpan file n) = Some (o, t) <-> example n s body o t).
Proof.
  intros (r & ->). unfold handle_code_block, example. pose proof (flags_spec "hidecpp" r eq_refl) as FH. pose proof (flags_spec "nocompile" r eq_refl) as FN.
  set (s := "```" +++ r) in *. clearbody s. split.
  - intros H. destruct (parse_call (join body)) as [[|a [|b [|c more]]]|]; try discriminate. destruct (extract_span body a) as [cpp|] eqn:Ea; [|discriminate].
    destruct (extract_span body b) as [hdr|] eqn:Eb; [|discriminate]. destruct (extract_span body c) as [rs|] eqn:Ec; [|discriminate]. cbv zeta in H.
    exists a, b, c, more, cpp, hdr, rs, (if negb (String.eqb (unescape_quotes cpp) "") && negb (smem "hidecpp" (code_block_flags s)) then ["#### C++ implementation:"; "```cpp"; unescape_quotes cpp; "```"] else []).
    repeat (split; [first [reflexivity|assumption]|]).
    assert (O : o = ["#### C++ header:"; "```cpp"; unescape_quotes hdr; "```"] ++ (if negb (String.eqb (unescape_quotes cpp) "") && negb (smem "hidecpp" (code_block_flags s)) then ["#### C++ implementation:"; "```cpp"; unescape_quotes cpp; "```"] else []) ++
      ["#### Rust:"; "```rust,noplayground"; escape_hexathorpes rs; "```"]) by (destruct (smem "nocompile" _); [|destruct (parse_file rs); [|discriminate]]; injection H as <- _; reflexivity).
    split; [exact O|]. split; [|split; [|split]].
    + intros [->|F]; [reflexivity|]. apply FH in F. rewrite F, andb_false_r. reflexivity.
    + intros N F. destruct (String.eqb_spec (unescape_quotes cpp) ""); [contradiction|]. destruct (smem "hidecpp" _); [destruct F, FH; auto|]. reflexivity.
    + intros F. apply FN in F. rewrite F in H. injection H as _ <-. reflexivity.
    + intros F. destruct (smem "nocompile" _); [destruct F, FN; auto|]. destruct (parse_file rs); [|discriminate]. injection H as _ <-. auto.
  - intros (a & b & c & more & cpp & hdr & rs & shown & -> & -> & -> & -> & -> & S1 & S2 & T1 & T2).
    assert (SH : (if negb (String.eqb (unescape_quotes cpp) "") && negb (smem "hidecpp" (code_block_flags s)) then ["#### C++ implementation:"; "```cpp"; unescape_quotes cpp; "```"] else []) = shown).
    { destruct (String.eqb_spec (unescape_quotes cpp) ""); [symmetry; auto|]. destruct (smem "hidecpp" _); cbn; symmetry; [apply S1; right; apply FH; reflexivity|apply S2; [assumption|]]. intros F. apply FH in F. discriminate. }
    cbv zeta. rewrite SH. destruct (smem "nocompile" _); [rewrite T1 by (apply FN; reflexivity); reflexivity|]. destruct T2 as [-> ->]; [intros F; apply FN in F; discriminate|]. reflexivity.
Qed.
Lemma chapter_run n l o t : chapter (S n) l o t -> run n l StStart = Some (o, t).
Proof.
  intros H. remember (S n) as m eqn:E. revert n E. induction H as [m|m s r o t F _ IH|m s body r o t F NF B _ IH|m s body F NF B|m s body r o t o' t' F B EX _ IH|m s body F B]; intros n E.
  - reflexivity.
  - cbn. apply recognize_misc in F. rewrite F, (IH (S n)) by congruence. reflexivity.
  - cbn. destruct (recognize_fence s F) as [[-> ->]|[_ [[X _]|[_ ->]]]]; [|contradiction|];
      rewrite (run_other body r B), (IH (S n + List.length body + 1)) by lia; reflexivity.
  - cbn. destruct (recognize_fence s F) as [[-> ->]|[_ [[X _]|[_ ->]]]]; [|contradiction|]; rewrite (run_other_open body B); reflexivity.
  - cbn. destruct (fence_cons s F) as [FE NE]. destruct (recognize_fence s FE) as [[X _]|[_ [[_ ->]|[X _]]]]; [contradiction| |contradiction].
    rewrite (run_ours body _ r B (S n) [] (Nat.le_0_l _)). cbn [List.length app]. rewrite Nat.sub_0_r, <- E, (proj2 (handle_spec m s body o' t' FE) EX), (IH (m + List.length body + 1)) by lia. reflexivity.
  - cbn. destruct (fence_cons s F) as [FE NE]. destruct (recognize_fence s FE) as [[X _]|[_ [[_ ->]|[X _]]]]; [contradiction| |contradiction].
    rewrite (run_ours_open body _ B). reflexivity.
Qed.
Lemma run_chapter : forall k l n o t, List.length l <= k -> run n l StStart = Some (o, t) -> chapter (S n) l o t.
Proof.
  induction k as [|k IH]; intros l n o t L H; [destruct l; [|cbn in L; lia]; injection H as <- <-; constructor|].
  destruct l as [|s l]; [injection H as <- <-; constructor|]. cbn in L. cbn in H.
  destruct (recognize_line s) eqn:RL.
  4:{ destruct (run (S n) l StStart) as [[o' t']|] eqn:R; [|discriminate]. injection H as <- <-. constructor; [apply recognize_misc, RL|]. apply IH; [lia|exact R]. }
  all: assert (FE : fence s) by (destruct (starts_with "```" s) eqn:S; [apply starts_with_spec in S as (r & ->); exists r; reflexivity|];
    unfold recognize_line in RL; rewrite S in RL; cbn [andb] in RL; destruct (String.eqb s "```") eqn:Q; try discriminate RL; apply String.eqb_eq in Q; subst s; exists ""; reflexivity).
  all: destruct (misc_prefix l) as (body & rest & -> & B & R); rewrite app_length in L.
  - assert (NF : ~ flagged "autocxx" s) by (destruct (recognize_fence s FE) as [[_ X]|[_ [[_ X]|[X _]]]]; [congruence..|exact X]).
    destruct R as [->|(x & r & -> & FX)].
    + rewrite app_nil_r in *. rewrite (run_other_open body B) in H. injection H as <- <-. apply ch_other_open; assumption.
    + destruct (recognize_fence x FX) as [[-> _]|[_ X]].
      * rewrite (run_other body r B) in H. destruct (run _ r StStart) as [[o' t']|] eqn:RR; [|discriminate]. injection H as <- <-. cbn in L. apply ch_other; try assumption.
        replace (S n + List.length body + 2) with (S (S n + List.length body + 1)) by lia. apply IH; [lia|exact RR].
      * exfalso. assert (NO : run (S n) (body ++ x :: r) StOther = None); [|rewrite NO in H; discriminate].
        clear - B X. revert n. induction B as [|y b F _ IHb]; intros n; cbn; [destruct X as [[_ ->]|[_ ->]]; reflexivity|]. apply recognize_misc in F. rewrite F, IHb. reflexivity.
  - assert (NF : flagged "autocxx" s /\ flags = code_block_flags s) by (destruct (recognize_fence s FE) as [[_ X]|[_ [[X X2]|[_ X]]]]; [congruence|split; [exact X|congruence]|congruence]).
    destruct NF as [NF ->]. destruct R as [->|(x & r & -> & FX)].
    + rewrite app_nil_r in *. rewrite (run_ours_open body _ B) in H. injection H as <- <-. apply ch_ours_open; assumption.
    + destruct (recognize_fence x FX) as [[-> _]|[_ X]].
      * rewrite (run_ours body _ r B (S n) [] (Nat.le_0_l _)) in H. cbn [app List.length] in H. rewrite Nat.sub_0_r in H.
        destruct (handle_code_block _ _ _ _ _) as [[o1 t1]|] eqn:HC; [|discriminate]. destruct (run _ r StStart) as [[o' t']|] eqn:RR; [|discriminate]. injection H as <- <-. cbn in L.
        apply ch_ours; [assumption|assumption|apply handle_spec; assumption|]. replace (S n + List.length body + 2) with (S (S n + List.length body + 1)) by lia. apply IH; [lia|exact RR].
      * exfalso. assert (NO : forall acc, run (S n) (body ++ x :: r) (StOurs (code_block_flags s) acc) = None); [|rewrite NO in H; discriminate].
        clear - B X. revert n. induction B as [|y b F _ IHb]; intros n acc; cbn; [destruct X as [[_ ->]|[_ ->]]; reflexivity|]. apply recognize_misc in F. rewrite F, IHb. reflexivity.
  - assert (NF : ~ flagged "autocxx" s) by (destruct (recognize_fence s FE) as [[-> _]|[_ [[_ X]|[_ X]]]]; [apply flagged_word; [reflexivity|discriminate]|congruence..]).
    destruct R as [->|(x & r & -> & FX)].
    + rewrite app_nil_r in *. rewrite (run_other_open body B) in H. injection H as <- <-. apply ch_other_open; assumption.
    + destruct (recognize_fence x FX) as [[-> _]|[_ X]].
      * rewrite (run_other body r B) in H. destruct (run _ r StStart) as [[o' t']|] eqn:RR; [|discriminate]. injection H as <- <-. cbn in L. apply ch_other; try assumption.
        replace (S n + List.length body + 2) with (S (S n + List.length body + 1)) by lia. apply IH; [lia|exact RR].
      * exfalso. assert (NO : run (S n) (body ++ x :: r) StOther = None); [|rewrite NO in H; discriminate].
        clear - B X. revert n. induction B as [|y b F _ IHb]; intros n; cbn; [destruct X as [[_ ->]|[_ ->]]; reflexivity|]. apply recognize_misc in F. rewrite F, IHb. reflexivity.
Qed.
End Chapters.

(** A chapter is taken apart into text, other code blocks, which stay as they are, and examples, which are replaced, each known by the line of its fence. Nothing
    else comes out, and any other nesting of fences is a panic. *)
Theorem c93_chapter : forall parse_call parse_file text file out tests,
  substitute_chapter parse_call parse_file text file = Some (out, tests) <->
  exists o, chapter parse_call parse_file file 1 (str_lines text) o tests /\ out = join o.
Proof.
  intros pc pf text file out tests. unfold substitute_chapter. split.
  - destruct (chapter_lines _ _ _ _ _ _) as [[o t]|] eqn:R; [|discriminate]. intros H. injection H as <- <-. exists o. split; [|reflexivity]. exact (run_chapter _ _ _ _ _ _ _ _ (le_n _) R).
  - intros (o & C & ->). rewrite (chapter_run _ _ _ _ _ _ _ C). reflexivity.
Qed.
Print Assumptions c93_chapter.

(** The whole book: it is written if and only if every chapter can be taken apart and, unless tests are skipped, every test passes, or the one asked for. *)
Definition chapter_of (pc : string -> option (list span)) (pf : string -> bool) (c : string * string) (ot : string * list test_case) : Prop :=
  exists o, chapter pc pf (fst c) 1 (str_lines (snd c)) o (snd ot) /\ fst ot = join o.
Theorem c93_book : forall pc pf doctest skip single book out,
  preprocess pc pf doctest skip single book = Some out <->
  exists ots, Forall2 (chapter_of pc pf) book ots /\ out = map fst ots /\
    (skip = false -> forall k t, nth_error (concat (map snd ots)) k = Some t -> single = None \/ single = Some (S k) -> doctest t = true).
Proof.
  intros pc pf doctest skip single book out.
  assert (SB : forall book os ts, substitute_book pc pf book = Some (os, ts) <-> exists ots, Forall2 (chapter_of pc pf) book ots /\ os = map fst ots /\ ts = concat (map snd ots)).
  { clear. induction book as [|[f x] book IH]; intros os ts; cbn [substitute_book].
    - split; [intros H; injection H as <- <-; exists []; auto|]. intros (ots & F & -> & ->). inversion F; subst. reflexivity.
    - split.
      + destruct (substitute_chapter pc pf x f) as [[o t]|] eqn:S; [|discriminate]. destruct (substitute_book pc pf book) as [[os' ts']|]; [|discriminate]. intros H. injection H as <- <-.
        destruct (proj1 (IH os' ts') eq_refl) as (ots & F & -> & ->). exists ((o, t) :: ots). split; [constructor; [apply c93_chapter in S; exact S|exact F]|]. auto.
      + intros (ots & F & -> & ->). inversion F as [|? [o t] ? ots' C F']; subst. cbn. apply c93_chapter in C. cbn in C. rewrite C.
        rewrite (proj2 (IH (map fst ots') (concat (map snd ots')))) by eauto. reflexivity. }
  assert (FA : forall ts n, failures doctest single n ts = [] <-> forall k t, nth_error ts k = Some t -> single = None \/ single = Some (S (n + k)) -> doctest t = true).
  { clear. induction ts as [|t ts IH]; intros n; cbn [failures]; [split; [intros _ [|k] t H; discriminate H|reflexivity]|].
    assert (SH : (forall k u, nth_error (t :: ts) k = Some u -> single = None \/ single = Some (S (n + k)) -> doctest u = true) <->
      (single = None \/ single = Some (S n) -> doctest t = true) /\ (forall k u, nth_error ts k = Some u -> single = None \/ single = Some (S (S n + k)) -> doctest u = true)).
    { split.
      - intros H. split; [intros X; apply (H 0); [reflexivity|]; rewrite Nat.add_0_r; exact X|]. intros k u E X. apply (H (S k) u E). rewrite Nat.add_succ_r. exact X.
      - intros [H1 H2] [|k] u E X; [injection E as <-; apply H1; rewrite Nat.add_0_r in X; exact X|]. apply (H2 k u E). rewrite Nat.add_succ_r in X. exact X. }
    rewrite SH, <- IH. clear SH IH. destruct single as [id|].
    - destruct (Nat.eqb_spec id (n + 1)) as [->|N].
      + destruct (doctest t); [tauto|]. split; [discriminate|]. intros [H _]. rewrite Nat.add_1_r in H. specialize (H (or_intror eq_refl)). discriminate.
      + split; [|tauto]. intros H. split; [|exact H]. intros [X|X]; [discriminate|]. injection X as ->. lia.
    - destruct (doctest t); [tauto|]. split; [discriminate|]. intros [H _]. specialize (H (or_introl eq_refl)). discriminate. }
  unfold preprocess. split.
  - destruct (substitute_book pc pf book) as [[os ts]|] eqn:S; [|discriminate]. destruct (proj1 (SB _ _ _) S) as (ots & F & -> & ->). intros H. exists ots. split; [exact F|].
    destruct skip; [injection H as <-; split; [reflexivity|discriminate]|]. destruct (failures doctest single 0 _) eqn:E; [|discriminate]. injection H as <-. split; [reflexivity|]. intros _. exact (proj1 (FA _ 0) E).
  - intros (ots & F & -> & T). rewrite (proj2 (SB book (map fst ots) (concat (map snd ots)))) by eauto. destruct skip; [reflexivity|]. rewrite (proj2 (FA _ 0) (T eq_refl)). reflexivity.
Qed.
Print Assumptions c93_book.

(** ** The parts of an example *)
(** The text of an argument is what is within its first and last character, wherever in the example it is and however many lines it has. *)
Theorem c93_extract : forall body pre a t b post, body <> [] -> Forall no_lf body -> a <> LF -> b <> LF ->
  join body = pre +++ String a (t +++ String b post) ->
  let tok := String a (t +++ String b "") in
  extract_span body (Span (S (breaks pre)) (column 0 pre) (S (breaks (pre +++ tok))) (column 0 (pre +++ tok))) = Some t.
Proof. intros. apply extract_token with (post := post); assumption. Qed.
Print Assumptions c93_extract.

(** A line which starts with [#], but for blanks, gets one more; others stay as they are, and no lines are added or lost. *)
Definition doubled (l l' : string) : Prop :=
  (exists ws r, all_chars is_blank ws = true /\ l = ws +++ String "#" r /\ l' = ws +++ String "#" (String "#" r)) \/
  ((forall ws r, all_chars is_blank ws = true -> l <> ws +++ String "#" r) /\ l' = l).
Lemma doubled_empty : doubled "" "".
Proof. right. split; [|reflexivity]. intros [|c ws] r _; discriminate. Qed.
Lemma doubled_blank c l l' : is_blank c = true -> doubled l l' -> doubled (String c l) (String c l').
Proof.
  intros B [(ws & r & W & -> & ->)|[N ->]]; [left; exists (String c ws), r; cbn; rewrite B; auto|]. right. split; [|reflexivity].
  intros [|d ws] r W E; cbn in E; [injection E as -> _; discriminate B|]. injection E as -> E. cbn in W. rewrite B in W. exact (N ws r W E).
Qed.
Lemma hash_head s h t ws r : split_at LF s = h :: t -> h = ws +++ String "#" r -> all_chars is_blank ws = true -> hash_next s = true.
Proof.
  revert s h t. induction ws as [|c ws IH]; intros s h t S -> W.
  - destruct s as [|d s]; cbn in S; [discriminate|]. destruct (Ascii.eqb d LF) eqn:E; [discriminate|]. destruct (split_cons LF s) as (h' & t' & S'). rewrite S' in S. injection S as -> _ _. reflexivity.
  - destruct s as [|d s]; cbn in S; [discriminate|]. destruct (Ascii.eqb d LF) eqn:E; [discriminate|]. destruct (split_cons LF s) as (h' & t' & S'). rewrite S' in S. injection S as -> -> _.
    cbn in W. apply andb_true_iff in W as [W1 W2]. cbn. rewrite W1. eapply IH; [exact S'|reflexivity|exact W2].
Qed.
Lemma escape_modes s :
  (exists h t t', split_at LF s = h :: t /\ split_at LF (escape_from HxCopy s) = h :: t' /\ Forall2 doubled t t') /\
  (hash_next s = true -> Forall2 doubled (split_at LF s) (split_at LF (escape_from HxMatch s))) /\
  Forall2 doubled (split_at LF s) (split_at LF (escape_from HxStart s)).
Proof.
  induction s as [|c s (IC & IM & IS)].
  - split; [exists "", [], []; cbn; auto|]. split; [discriminate|]. cbn. constructor; [apply doubled_empty|constructor].
  - assert (CO : exists h t t', split_at LF (String c s) = h :: t /\ split_at LF (String c (escape_from (if Ascii.eqb c LF then HxStart else HxCopy) s)) = h :: t' /\ Forall2 doubled t t').
    { cbn. destruct (Ascii.eqb c LF) eqn:E; [exists "", (split_at LF s), (split_at LF (escape_from HxStart s)); auto|].
      destruct IC as (h & t & t' & -> & -> & F). exists (String c h), t, t'. auto. }
    assert (MA : hash_next (String c s) = true -> Forall2 doubled (split_at LF (String c s)) (split_at LF (if Ascii.eqb c "#" then "##" +++ escape_from HxCopy s else String c (escape_from HxMatch s)))).
    { intros H. destruct (Ascii.eqb_spec c "#") as [->|N].
      - destruct IC as (h & t & t' & E1 & E2 & F). cbn. rewrite E1, E2. constructor; [|exact F]. left. exists "", h. auto.
      - cbn in H. destruct (is_blank c) eqn:B; [|apply Ascii.eqb_eq in H; contradiction]. specialize (IM H). cbn. destruct (Ascii.eqb c LF); [constructor; [apply doubled_empty|exact IM]|].
        destruct (split_cons LF s) as (h & t & E). destruct (split_cons LF (escape_from HxMatch s)) as (h' & t' & E'). rewrite E, E' in *. inversion IM; subst. constructor; [apply doubled_blank; assumption|assumption]. }
    split; [exact CO|]. split; [exact MA|]. change (escape_from HxStart (String c s)) with
      (match (if hash_next (String c s) then HxMatch else HxCopy) with HxMatch => if Ascii.eqb c "#" then "##" +++ escape_from HxCopy s else String c (escape_from HxMatch s) | _ => String c (escape_from (if Ascii.eqb c LF then HxStart else HxCopy) s) end).
    destruct (hash_next (String c s)) eqn:H; [apply MA; reflexivity|]. destruct CO as (h & t & t' & E1 & E2 & F). rewrite E1, E2. constructor; [|exact F]. right. split; [|reflexivity].
    intros ws r W E. rewrite (hash_head _ _ _ _ _ E1 E W) in H. discriminate.
Qed.
Theorem c93_hexathorpes : forall s, Forall2 doubled (split_at LF s) (split_at LF (escape_hexathorpes s)).
Proof. intros s. apply escape_modes. Qed.
Print Assumptions c93_hexathorpes.

(** The value of the inside of a Rust string literal with the usual escapes: quotes, backslashes and line feeds. *)
Inductive value : string -> string -> Prop :=
| v_end : value "" ""
| v_quote s v : value s v -> value (String "\" (String """" s)) (String """" v)
| v_backslash s v : value s v -> value (String "\" (String "\" s)) (String "\" v)
| v_newline s v : value s v -> value (String "\" (String "n" s)) (String LF v)
| v_plain c s v : c <> "\"%char -> c <> """"%char -> value s v -> value (String c s) (String c v).
(** The C++ code is the value of the literal, if quotes are all that is escaped in it. Partial: not for other escapes, see below. *)
Theorem c93_unescape_partial : forall s v, value s v -> (forall a b, s <> a +++ "\\" +++ b) -> (forall a b, s <> a +++ "\n" +++ b) -> unescape_quotes s = v.
Proof.
  induction 1 as [|s v H IH|s v H IH|s v H IH|c s v N1 N2 H IH]; intros B1 B2.
  - reflexivity.
  - cbn. f_equal. apply IH; intros a b ->; [apply (B1 (String "\" (String """" a)) b)|apply (B2 (String "\" (String """" a)) b)]; reflexivity.
  - destruct (B1 "" s). reflexivity.
  - destruct (B2 "" s). reflexivity.
  - assert (IH' : unescape_quotes s = v) by (apply IH; intros a b ->; [apply (B1 (String c a) b)|apply (B2 (String c a) b)]; reflexivity).
    rewrite <- IH'. clear - N1. destruct c as [[|] [|] [|] [|] [|] [|] [|] [|]]; try reflexivity. contradiction N1. reflexivity.
Qed.
Print Assumptions c93_unescape_partial.
(** An escaped backslash stays doubled in the C++ code which is shown and tested: [char c = '\\n';] is not the value of the literal. *)
Theorem c93_backslash_refuted : exists s v, value s v /\ unescape_quotes s <> v.
Proof.
  exists "c='\\n';", "c='\n';". split; [|discriminate].
  do 3 (apply v_plain; [discriminate..|]). apply v_backslash. do 3 (apply v_plain; [discriminate..|]). apply v_end.
Qed.
Print Assumptions c93_backslash_refuted.
(** An example whose code block is not closed is neither shown nor tested, nor is that an error. *)
Theorem c93_unclosed_refuted : exists text out s body, (forall file, exists pre, str_lines text = pre ++ s :: body /\ Forall (fun x => ~ fence x) (pre ++ body) /\ flagged "autocxx" s /\ body <> [] /\
  forall pc pf, substitute_chapter pc pf text file = Some (out, []) /\ out = join pre).
Proof.
  exists ("Intro" +++ newline +++ "```rust,autocxx" +++ newline +++ "f(1, 2)" +++ newline), "Intro", "```rust,autocxx", ["f(1, 2)"]. intros file. exists ["Intro"].
  split; [reflexivity|]. split; [repeat constructor; intros (r & E); discriminate E|]. split; [exists "rust,autocxx", ",rust", ""; split; reflexivity|]. split; [discriminate|].
  intros pc pf. split; reflexivity.
Qed.
Print Assumptions c93_unclosed_refuted.

(** ** A case *)
Definition demo_text : string := join ["Text"; "```cpp"; "int y;"; "```"; "```rust,autocxx"; "f("; "    ""int x(const char *s = \""\"");"","; "    ""struct A {"; "};"","; "{"; "  #[a]"; "fn main() {}"; "}"; ")"; "```"; "End"; ""].
Definition demo_call (s : string) : option (list span) := Some [Span 2 4 2 34; Span 3 4 4 3; Span 5 0 8 1].
Example c93_case : exists body pre t post, substitute_chapter demo_call (fun _ => true) demo_text "a.md" =
    Some (join ["Text"; "```cpp"; "int y;"; "```"; "#### C++ header:"; "```cpp"; "struct A {"; "};"; "```"; "#### C++ implementation:"; "```cpp"; "int x(const char *s = """");"; "```";
                "#### Rust:"; "```rust,noplayground"; ""; "  ##[a]"; "fn main() {}"; ""; "```"; "End"],
          [TestCase "int x(const char *s = """");" (join ["struct A {"; "};"]) (join [""; "  #[a]"; "fn main() {}"; ""]) (MiniSpan "a.md" 5)]) /\
  preprocess demo_call (fun _ => true) (fun t => String.eqb (tc_hdr t) "") false None [("a.md", demo_text)] = None /\
  preprocess demo_call (fun _ => true) (fun t => String.eqb (tc_hdr t) "") false (Some 2) [("a.md", demo_text)] <> None /\
  body <> [] /\ Forall no_lf body /\ join body = pre +++ String """" (t +++ String """" post) /\ t = join ["struct A {"; "};"] /\
  nth_error [Span 2 4 2 34; Span 3 4 4 3; Span 5 0 8 1] 1 = Some (Span (S (breaks pre)) (column 0 pre) (S (breaks (pre +++ String """" (t +++ """")))) (column 0 (pre +++ String """" (t +++ """")))) /\
  value "int x(const char *s = \""\"");" "int x(const char *s = """");".
Proof.
  exists ["f("; "    ""int x(const char *s = \""\"");"","; "    ""struct A {"; "};"","; "{"; "  #[a]"; "fn main() {}"; "}"; ")"].
  exists ("f(" +++ newline +++ "    ""int x(const char *s = \""\"");""," +++ newline +++ "    "), (join ["struct A {"; "};"]), ("," +++ newline +++ join ["{"; "  #[a]"; "fn main() {}"; "}"; ")"]).
  split; [vm_compute; reflexivity|]. split; [vm_compute; reflexivity|]. split; [vm_compute; discriminate|]. split; [discriminate|]. split; [repeat constructor|].
  split; [vm_compute; reflexivity|]. split; [reflexivity|]. split; [vm_compute; reflexivity|]. repeat (first [apply v_end | apply v_quote | apply v_plain; [discriminate..|]]).
Qed.
