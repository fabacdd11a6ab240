(** tools/mdbook-preprocessor/src/main.rs: the preprocessor of the book, which takes the code examples out of the chapters, shows them as C++ and
    Rust, and runs them. Text is bytes here; spans count bytes where the code counts characters, so that the two agree on ASCII. *)
From Verif Require Import Base.
From Coq Require Import Ascii.

Definition LF : ascii := "010"%char.
Definition CR : ascii := "013"%char.
Definition newline : string := String LF "".

(** [str::lines] of Rust's standard library: lines end in a line feed, with a carriage return before it removed; an empty last line does not count. *)
Definition next_is (c : ascii) (s : string) : bool := match s with String d _ => Ascii.eqb c d | EmptyString => false end.
Fixpoint str_lines (s : string) : list string :=
  match s with
  | EmptyString => []
  | String c r =>
      if Ascii.eqb c LF then "" :: str_lines r
      else if Ascii.eqb c CR && next_is LF r then str_lines r
      else match str_lines r with [] => [String c ""] | l :: ls => String c l :: ls end
  end.
(** [join("\n")]. *)
Definition join (l : list string) : string := String.concat newline l.
(** [str::split] at a character. *)
Fixpoint split_at (sep : ascii) (s : string) : list string :=
  match s with
  | EmptyString => [""]
  | String c r =>
      if Ascii.eqb c sep then "" :: split_at sep r
      else match split_at sep r with [] => [String c ""] | l :: ls => String c l :: ls end
  end.
(** A slice of a [str], which panics if its bounds are out of order or out of range. *)
Definition slice (s : string) (from til : nat) : option string :=
  if Nat.leb from til && Nat.leb til (String.length s) then Some (String.substring from (til - from) s) else None.
Definition slice_from (s : string) (from : nat) : option string := slice s from (String.length s).
(** A subtraction of [usize], which panics below zero. *)
Definition minus (a b : nat) : option nat := if Nat.leb b a then Some (a - b) else None.

(** tools/mdbook-preprocessor/src/main.rs:247-250 [MiniSpan]. *)
Record mini_span := MiniSpan { ms_file : string; ms_line : nat }.
(** tools/mdbook-preprocessor/src/main.rs:258-263 [TestCase]; the Rust code is text, not tokens. *)
Record test_case := TestCase { tc_cpp : string; tc_hdr : string; tc_rs : string; tc_location : mini_span }.
(** tools/mdbook-preprocessor/src/main.rs:267-271 [ChapterParseState]. *)
Inductive chapter_state := StStart | StOther | StOurs (flags lines : list string).
(** tools/mdbook-preprocessor/src/main.rs:273-278 [LineType]. *)
Inductive line_type := LtStart | LtAutocxx (flags : list string) | LtEnd | LtMisc.

(** tools/mdbook-preprocessor/src/main.rs:280-283 [code_block_flags]; only called on lines of more than three bytes. *)
Definition code_block_flags (line : string) : list string := split_at ","%char (String.substring 3 (String.length line - 3) line).
(** tools/mdbook-preprocessor/src/main.rs:285-298 [recognize_line]. *)
Definition recognize_line (line : string) : line_type :=
  if starts_with "```" line && Nat.ltb 3 (String.length line) then
    let flags := code_block_flags line in
    if smem "autocxx" flags then LtAutocxx flags else LtStart
  else if String.eqb line "```" then LtEnd
  else LtMisc.

(** A span of proc_macro2: lines count from 1 and columns from 0. *)
Record span := Span { sp_line : nat; sp_col : nat; sp_end_line : nat; sp_end_col : nat }.
(** tools/mdbook-preprocessor/src/main.rs:351-369 [extract_span]. [None] is a panic. *)
Definition extract_span (text : list string) (s : span) : option string :=
  match minus (sp_line s) 1, minus (sp_end_line s) 1, minus (sp_end_col s) 1 with
  | Some start_line, Some end_line, Some til =>
      if Nat.eqb start_line end_line then
        match nth_error text start_line with
        | Some l => slice l (sp_col s + 1) til
        | None => None
        end
      else
        match nth_error text start_line, nth_error text end_line with
        | Some l1, Some l2 =>
            match slice_from l1 (sp_col s + 1), slice l2 0 til with
            | Some start_subset, Some end_subset =>
                if Nat.leb (start_line + 1) end_line
                then Some (join (start_subset :: firstn (end_line - (start_line + 1)) (skipn (start_line + 1) text) ++ [end_subset]))
                else None
            | _, _ => None
            end
        | _, _ => None
        end
  | _, _, _ => None
  end.

(** tools/mdbook-preprocessor/src/main.rs:371-374 [escape_hexathorpes]: a [#] which is the first on its line but for blanks is doubled.
    The blanks of the regular expression include the ends of lines, so that a match may start some empty lines before; of the blanks
    of Unicode only those of ASCII are modelled. At the start of a line a match is tried; in a match the blanks are copied up to the [#]; else
    the rest of the line is. *)
Definition is_blank (c : ascii) : bool :=
  Ascii.eqb c " " || Ascii.eqb c "009" || Ascii.eqb c LF || Ascii.eqb c "011" || Ascii.eqb c "012" || Ascii.eqb c CR.
Inductive hex_mode := HxStart | HxMatch | HxCopy.
Fixpoint hash_next (s : string) : bool :=
  match s with
  | EmptyString => false
  | String c r => if is_blank c then hash_next r else Ascii.eqb c "#"
  end.
Fixpoint escape_from (m : hex_mode) (s : string) : string :=
  match s with
  | EmptyString => ""
  | String c r =>
      match match m with HxStart => if hash_next s then HxMatch else HxCopy | _ => m end with
      | HxMatch => if Ascii.eqb c "#" then "##" +++ escape_from HxCopy r else String c (escape_from HxMatch r)
      | _ => String c (escape_from (if Ascii.eqb c LF then HxStart else HxCopy) r)
      end
  end.
Definition escape_hexathorpes (s : string) : string := escape_from HxStart s.
(** tools/mdbook-preprocessor/src/main.rs:376-378 [unescape_quotes]. *)
Fixpoint unescape_quotes (s : string) : string :=
  match s with
  | String "\" (String """" r) => String """" (unescape_quotes r)
  | String c r => String c (unescape_quotes r)
  | EmptyString => ""
  end.

Section Book.
(** What syn makes of the outer call, if it is one: the spans of its arguments; and whether it can parse a file. *)
Variable parse_call : string -> option (list span).
Variable parse_file : string -> bool.

(** tools/mdbook-preprocessor/src/main.rs:300-349 [handle_code_block]: the lines, and the test if one is made. [None] is a panic. *)
Definition handle_code_block (flags lines : list string) (location : mini_span) : option (list string * list test_case) :=
  match parse_call (join lines) with
  | Some (a :: b :: c :: _) =>
      match extract_span lines a, extract_span lines b, extract_span lines c with
      | Some cpp, Some hdr, Some rs =>
          let cpp := unescape_quotes cpp in
          let hdr := unescape_quotes hdr in
          let output :=
            ["#### C++ header:"; "```cpp"; hdr; "```"] ++
            (if negb (String.eqb cpp "") && negb (smem "hidecpp" flags) then ["#### C++ implementation:"; "```cpp"; cpp; "```"] else []) ++
            ["#### Rust:"; "```rust,noplayground"; escape_hexathorpes rs; "```"] in
          if smem "nocompile" flags then Some (output, [])
          else if parse_file rs then Some (output, [TestCase cpp hdr rs location]) else None
      | _, _, _ => None
      end
  | _ => None
  end.

(** tools/mdbook-preprocessor/src/main.rs:184-230, inside substitute_chapter: one line. *)
Definition chapter_step (filename : string) (line_no : nat) (line : string) (st : chapter_state)
  : option (chapter_state * list string * list test_case) :=
  match st with
  | StStart =>
      match recognize_line line with
      | LtStart | LtEnd => Some (StOther, [line], [])
      | LtAutocxx flags => Some (StOurs flags [], [], [])
      | LtMisc => Some (StStart, [line], [])
      end
  | StOther =>
      match recognize_line line with
      | LtEnd => Some (StStart, [line], [])
      | LtMisc => Some (StOther, [line], [])
      | _ => None
      end
  | StOurs flags lines =>
      match recognize_line line with
      | LtMisc => Some (StOurs flags (lines ++ [line]), [], [])
      | LtEnd =>
          match minus line_no (List.length lines) with
          | Some start =>
              match handle_code_block flags lines (MiniSpan filename start) with
              | Some (out, tests) => Some (StStart, out, tests)
              | None => None
              end
          | None => None
          end
      | _ => None
      end
  end.
Fixpoint chapter_lines (filename : string) (line_no : nat) (lines : list string) (st : chapter_state) : option (list string * list test_case) :=
  match lines with
  | [] => Some ([], [])
  | l :: r =>
      match chapter_step filename line_no l st with
      | None => None
      | Some (st', o, t) =>
          match chapter_lines filename (S line_no) r st' with
          | Some (o', t') => Some (o ++ o', t ++ t')
          | None => None
          end
      end
  end.
(** tools/mdbook-preprocessor/src/main.rs:184-230 [substitute_chapter]. *)
Definition substitute_chapter (chapter filename : string) : option (string * list test_case) :=
  match chapter_lines filename 0 (str_lines chapter) StStart with
  | Some (o, t) => Some (join o, t)
  | None => None
  end.
(** tools/mdbook-preprocessor/src/main.rs:103-113, inside preprocess: all chapters, each with its file, in the order mdbook visits them. *)
Fixpoint substitute_book (book : list (string * string)) : option (list string * list test_case) :=
  match book with
  | [] => Some ([], [])
  | (file, text) :: r =>
      match substitute_chapter text file with
      | None => None
      | Some (o, t) => match substitute_book r with Some (os, ts) => Some (o :: os, t ++ ts) | None => None end
      end
  end.

(** Whether a test passes. *)
Variable doctest : test_case -> bool.
(** tools/mdbook-preprocessor/src/main.rs:115-177, inside preprocess: the numbers of the tests which fail, of all of them or of the single one asked for. The
    tests run in parallel; what they write is left out. *)
Fixpoint failures (single : option nat) (counter : nat) (tests : list test_case) : list nat :=
  match tests with
  | [] => []
  | t :: r =>
      let rest := failures single (S counter) r in
      match single with
      | Some id => if Nat.eqb id (counter + 1) then if doctest t then rest else (counter + 1) :: rest else rest
      | None => if doctest t then rest else (counter + 1) :: rest
      end
  end.
(** tools/mdbook-preprocessor/src/main.rs:97-182 [preprocess]: the chapters which are written. [None] is a panic. *)
Definition preprocess (skip_tests : bool) (single : option nat) (book : list (string * string)) : option (list string) :=
  match substitute_book book with
  | None => None
  | Some (out, tests) => if skip_tests then Some out else match failures single 0 tests with [] => Some out | _ => None end
  end.
End Book.
