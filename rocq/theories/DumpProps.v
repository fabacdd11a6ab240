(** C99: the preprocessed header written for reports of problems. *)
From Verif Require Import Base ConfigModel EngineModel EngineProps ReduceModel DumpModel.

(** ** What a C++ compiler sees of a text: all but the comments
    Part of the specification. Only comments between [/*] and its end are known; line comments and string literals are taken for other text. *)
Definition is_star (c : ascii) : bool := Ascii.eqb c "*".
Definition is_slash (c : ascii) : bool := Ascii.eqb c "/".
Fixpoint code (k : bool) (s : string) : string :=
  match s with
  | EmptyString => ""
  | String c r =>
      match r with
      | EmptyString => if k then "" else s
      | String d r' =>
          if k then (if is_star c && is_slash d then code false r' else code true r)
          else (if is_slash c && is_star d then code true r' else String c (code false r))
      end
  end.
(** Whether a text ends within a comment. *)
Fixpoint ends_in_comment (k : bool) (s : string) : bool :=
  match s with
  | EmptyString => k
  | String c r =>
      match r with
      | EmptyString => k
      | String d r' =>
          if k then (if is_star c && is_slash d then ends_in_comment false r' else ends_in_comment true r)
          else (if is_slash c && is_star d then ends_in_comment true r' else ends_in_comment false r)
      end
  end.

Local Notation newline := (Ascii.ascii_of_nat 10).
Lemma pair_ind (P : string -> Prop) : P "" -> (forall c, P (String c "")) -> (forall c d r, P r -> P (String d r) -> P (String c (String d r))) -> forall s, P s.
Proof.
  intros H0 H1 H2 s. assert (K : P s /\ forall c, P (String c s)); [|exact (proj1 K)]. induction s as [|d s [A B]]; [auto|]. split; [apply B|]. intros c. apply H2; [exact A|apply B].
Qed.
Lemma code_line k h r : code k (h +++ nl +++ r) =
  code k h +++ (if ends_in_comment k h then "" else nl) +++ code (ends_in_comment k h) r.
Proof.
  revert k. pattern h. apply pair_ind; clear h.
  - intros k. change ("" +++ nl +++ r) with (String newline r). destruct r as [|d r]; destruct k; reflexivity.
  - intros c k. change (String c "" +++ nl +++ r) with (String c (String newline r)).
    assert (S1 : is_star c && is_slash newline = false) by (destruct (is_star c); reflexivity). assert (S2 : is_slash c && is_star newline = false) by (destruct (is_slash c); reflexivity).
    assert (E : code k (String c (String newline r)) = if k then (if is_star c && is_slash newline then code false r else code true (String newline r))
      else (if is_slash c && is_star newline then code true r else String c (code false (String newline r)))) by reflexivity.
    rewrite E, S1, S2. destruct k; destruct r; reflexivity.
  - intros c d h IH IH1 k. change (String c (String d h) +++ nl +++ r) with (String c (String d (h +++ nl +++ r))).
    assert (E : code k (String c (String d (h +++ nl +++ r))) =
      if k then (if is_star c && is_slash d then code false (h +++ nl +++ r) else code true (String d h +++ nl +++ r))
      else (if is_slash c && is_star d then code true (h +++ nl +++ r) else String c (code false (String d h +++ nl +++ r)))) by reflexivity.
    assert (E2 : code k (String c (String d h)) = if k then (if is_star c && is_slash d then code false h else code true (String d h))
      else (if is_slash c && is_star d then code true h else String c (code false (String d h)))) by reflexivity.
    assert (E3 : ends_in_comment k (String c (String d h)) = if k then (if is_star c && is_slash d then ends_in_comment false h else ends_in_comment true (String d h))
      else (if is_slash c && is_star d then ends_in_comment true h else ends_in_comment false (String d h))) by reflexivity.
    rewrite E, E2, E3. destruct k.
    + destruct (is_star c && is_slash d); [apply IH|apply IH1].
    + destruct (is_slash c && is_star d); [apply IH|]. rewrite IH1. reflexivity.
Qed.

Lemma no_end s : contains "*/" s = false -> code true s = "" /\ ends_in_comment true s = true.
Proof.
  induction s as [|c s IH]; intros H; [split; reflexivity|].
  assert (N : starts_with "*/" (String c s) = false /\ contains "*/" s = false).
  { split.
    - destruct (starts_with "*/" (String c s)) eqn:E; [|reflexivity]. apply starts_with_spec in E as [t E]. rewrite E in H.
      assert (X : contains "*/" ("*/" +++ t) = true) by (apply contains_spec; exists "", t; reflexivity). congruence.
    - destruct (contains "*/" s) eqn:E; [|reflexivity]. apply contains_spec in E as (a & b & ->).
      assert (X : contains "*/" (String c (a +++ "*/" +++ b)) = true) by (apply contains_spec; exists (String c a), b; reflexivity). congruence. }
  destruct N as [N1 N2]. destruct (IH N2) as [A B]. destruct s as [|d s]; [split; reflexivity|].
  assert (E : is_star c && is_slash d = false).
  { destruct (is_star c && is_slash d) eqn:E; [|reflexivity]. apply andb_prop in E as [E1 E2]. apply Ascii.eqb_eq in E1, E2. subst.
    assert (X : starts_with "*/" (String "*" (String "/" s)) = true) by (apply starts_with_spec; exists s; reflexivity). congruence. }
  assert (Q1 : code true (String c (String d s)) = if is_star c && is_slash d then code false s else code true (String d s)) by reflexivity.
  assert (Q2 : ends_in_comment true (String c (String d s)) = if is_star c && is_slash d then ends_in_comment false s else ends_in_comment true (String d s)) by reflexivity.
  rewrite Q1, Q2, E. auto.
Qed.
(** A line of which the compiler sees [x], and after which it is within a comment if [k']. *)
Lemma code_step k l r x k' : code k l = x -> ends_in_comment k l = k' -> code k (l +++ nl +++ r) = x +++ (if k' then "" else nl) +++ code k' r.
Proof. intros <- <-. apply code_line. Qed.

(** The headers cxx's own code uses, as the lines which include them. *)
Definition system_includes : list string :=
  ["#include <memory>"; ""; "#include <string>"; ""; "#include <algorithm>"; ""; "#include <array>"; ""; "#include <cassert>"; ""; "#include <cstddef>"; ""; "#include <cstdint>"; "";
   "#include <cstring>"; ""; "#include <exception>"; ""; "#include <functional>"; ""; "#include <initializer_list>"; ""; "#include <iterator>"; ""; "#include <memory>"; ""; "#include <new>"; "";
   "#include <stdexcept>"; ""; "#include <type_traits>"; ""; "#include <utility>"; ""; "#include <vector>"; ""; "#include <sys/types.h>"; ""].
(** The text after the configuration, as lines. *)
Definition tail_lines (cxx_h header : string) : string :=
  header +++ nl +++ "" +++ nl +++ "/* autocxx: extra headers added below for completeness. */" +++ nl +++ "" +++ nl +++ join nl system_includes +++ nl +++ cxx_h +++ nl.
Lemma input_lines cxx_h debug header : dump_input cxx_h debug header =
  "/*" +++ nl +++ "autocxx config:" +++ nl +++ "" +++ nl +++ debug +++ nl +++ "" +++ nl +++ "end autocxx config." +++ nl +++ "autocxx preprocessed input:" +++ nl +++ "*/" +++ nl +++ "" +++ nl +++
  tail_lines cxx_h header.
Proof.
  unfold dump_input, tail_lines.
  assert (Q : join nl (map (fun h => "#include <" +++ h +++ ">" +++ nl) all_known_system_headers) = join nl system_includes) by (vm_compute; reflexivity).
  rewrite Q. generalize (join nl system_includes). intros m. reflexivity.
Qed.

(** C99. The compiler sees the headers of the block as they are, then the includes which cxx's code needs and cxx's header, and nothing of the configuration, provided
    what is printed of that does not end the comment around it and the headers close the comments they open. *)
Theorem c99_input : forall cxx_h debug header, contains "*/" debug = false -> ends_in_comment false header = false ->
  code false (dump_input cxx_h debug header) =
    nl +++ nl +++ code false header +++ nl +++ nl +++ nl +++ nl +++ join nl system_includes +++ nl +++ code false (cxx_h +++ nl).
Proof.
  intros cxx_h debug header D H. destruct (no_end debug D) as [D1 D2]. rewrite input_lines. unfold tail_lines.
  assert (M1 : code false (join nl system_includes) = join nl system_includes) by (vm_compute; reflexivity).
  assert (M2 : ends_in_comment false (join nl system_includes) = false) by (vm_compute; reflexivity).
  revert M1 M2. generalize (join nl system_includes). intros m M1 M2.
  rewrite (code_step false "/*" _ "" true) by reflexivity. rewrite (code_step true "autocxx config:" _ "" true) by reflexivity. rewrite (code_step true "" _ "" true) by reflexivity.
  rewrite (code_step true debug _ "" true D1 D2). rewrite (code_step true "" _ "" true) by reflexivity. rewrite (code_step true "end autocxx config." _ "" true) by reflexivity.
  rewrite (code_step true "autocxx preprocessed input:" _ "" true) by reflexivity. rewrite (code_step true "*/" _ "" false) by reflexivity.
  rewrite (code_step false "" _ "" false) by reflexivity.
  rewrite (code_step false header _ _ false eq_refl H). rewrite (code_step false "" _ "" false) by reflexivity.
  rewrite (code_step false "/* autocxx: extra headers added below for completeness. */" _ "" false) by reflexivity. rewrite (code_step false "" _ "" false) by reflexivity.
  rewrite (code_step false m _ m false M1 M2). reflexivity.
Qed.

(** C99. What is written: what clang prints for that input, given the include directories, the arguments and the file; the same to both files, and with the second the
    configuration as the macro's tokens. Nothing is written unless it is asked for. *)
Theorem c99_written : forall clang tmp cxx_h debug pre repro c header incs extra a b,
  dump_header clang tmp cxx_h debug pre repro c header incs extra = Some (a, b) ->
  (forall p t, In (p, t) a <-> pre = Some p /\ clang (dump_input cxx_h debug header) (preprocess_args tmp incs extra) = Some t) /\
  (forall p r, In (p, r) b <-> repro = Some p /\ to_tokens c = ROk (rp_config r) /\ clang (dump_input cxx_h debug header) (preprocess_args tmp incs extra) = Some (rp_header r)).
Proof.
  intros clang tmp cxx_h debug pre repro c header incs extra a b. unfold dump_header, make_preprocessed_file.
  destruct (clang (dump_input cxx_h debug header) (preprocess_args tmp incs extra)) as [t|].
  - intros E. assert (A : a = match pre with Some p => [(p, t)] | None => [] end /\ match repro with
      | None => b = [] | Some p => exists ts, to_tokens c = ROk ts /\ b = [(p, ReproCase ts t)] end).
    { destruct pre; cbn [option_map] in E; (destruct repro; [unfold repro_of in E; destruct (to_tokens c) as [ts|x|] eqn:T; try discriminate; injection E as <- <-; split; eauto|
        injection E as <- <-; split; reflexivity]). }
    destruct A as [-> B]. split.
    + intros p t'. destruct pre as [q|]; cbn [In]; split; intros X.
      * destruct X as [X|[]]. injection X as <- <-. auto.
      * destruct X as [X Y]. injection X as <-. injection Y as <-. auto.
      * destruct X.
      * destruct X as [X _]. discriminate.
    + intros p r. destruct repro as [q|].
      * destruct B as (ts & T & ->). cbn [In]. split; intros X.
        -- destruct X as [X|[]]. injection X as <- <-. auto.
        -- destruct X as (X & Y & Z). injection X as <-. rewrite T in Y. injection Y as Y. injection Z as Z. left. destruct r. cbn in Y, Z. subst. reflexivity.
      * subst b. split; [intros []|]. intros [X _]. discriminate.
  - intros E. destruct pre; [discriminate|]. destruct repro; [discriminate|]. injection E as <- <-. split; intros p x; split; [intros []|intros [X _]; discriminate|intros []|intros [X _]; discriminate].
Qed.
(** C99. The run ends in a panic exactly if a file is asked for and clang fails, or a case is asked for and the configuration cannot be given as tokens. *)
Theorem c99_panics : forall clang tmp cxx_h debug pre repro c header incs extra,
  dump_header clang tmp cxx_h debug pre repro c header incs extra = None <->
  ((pre <> None \/ repro <> None) /\ clang (dump_input cxx_h debug header) (preprocess_args tmp incs extra) = None) \/
  (repro <> None /\ forall ts, to_tokens c <> ROk ts).
Proof.
  intros clang tmp cxx_h debug pre repro c header incs extra. unfold dump_header, make_preprocessed_file, repro_of.
  destruct (clang (dump_input cxx_h debug header) (preprocess_args tmp incs extra)) as [t|]; destruct pre as [p|]; destruct repro as [q|]; cbn [option_map];
    destruct (to_tokens c) as [ts|x|]; split; intros X;
    first [ discriminate X | reflexivity | exfalso; destruct X as [[_ X]|[X Y]]; [discriminate X|first [destruct (X eq_refl)|destruct (Y _ eq_refl)]]
          | exfalso; destruct X as [[[X|X] _]|[X _]]; destruct (X eq_refl)
          | left; split; [first [left; discriminate|right; discriminate]|reflexivity] | right; split; [discriminate|intros ts'; discriminate] ].
Qed.
Print Assumptions c99_panics.
Print Assumptions c99_input.
Print Assumptions c99_written.

(** C99. The configuration is not escaped: Rust prints the characters of strings as they are, but for quotes and those which cannot be seen. A name with the end of a comment
    in it, which a macro can ask for, ends the comment, and the rest of the configuration is given to the compiler. *)
Theorem c99_comment_ended_refuted : exists debug, contains "generate*/d" debug = true /\ forall cxx_h header,
  exists rest, code false (dump_input cxx_h debug header) = "d })" +++ nl +++ nl +++ "end autocxx config." +++ nl +++ "autocxx preprocessed input:" +++ nl +++ rest.
Proof.
  exists "Specific({ generate*/d })". split; [reflexivity|]. intros cxx_h header. rewrite input_lines. generalize (tail_lines cxx_h header). intros t.
  exists (code false ("*/" +++ nl +++ "" +++ nl +++ t)).
  assert (Q : forall x, code false ("end autocxx config." +++ nl +++ "autocxx preprocessed input:" +++ nl +++ x) = "end autocxx config." +++ nl +++ "autocxx preprocessed input:" +++ nl +++ code false x).
  { intros x. transitivity ("end autocxx config." +++ nl +++ code false ("autocxx preprocessed input:" +++ nl +++ x)).
    - exact (code_step false "end autocxx config." _ _ false eq_refl eq_refl).
    - f_equal. f_equal. exact (code_step false "autocxx preprocessed input:" _ _ false eq_refl eq_refl). }
  specialize (Q ("*/" +++ nl +++ "" +++ nl +++ t)). rewrite <- Q. clear Q.
  generalize ("end autocxx config." +++ nl +++ "autocxx preprocessed input:" +++ nl +++ "*/" +++ nl +++ "" +++ nl +++ t). intros x.
  rewrite (code_step false "/*" _ "" true) by reflexivity. rewrite (code_step true "autocxx config:" _ "" true) by reflexivity. rewrite (code_step true "" _ "" true) by reflexivity.
  rewrite (code_step true "Specific({ generate*/d })" _ "d })" false) by reflexivity. rewrite (code_step false "" _ "" false) by reflexivity. reflexivity.
Qed.
Print Assumptions c99_comment_ended_refuted.

(** A block with a comment in its headers, preprocessed by a clang which prints what it is given. *)
Example c99_case : contains "*/" "Config { inclusions: [a.h] }" = false /\ ends_in_comment false ("/* mine */" +++ nl +++ "#include <a.h>") = false /\
  exists a, dump_header (fun t _ => Some t) "tmp" "CXX" "Config { inclusions: [a.h] }" (Some "out.h") None default_config
    ("/* mine */" +++ nl +++ "#include <a.h>") [] [] = Some ([("out.h", a)], []) /\ contains ("CXX" +++ nl) (code false a) = true.
Proof. split; [reflexivity|]. split; [reflexivity|]. eexists. split; [reflexivity|]. vm_compute. reflexivity. Qed.
