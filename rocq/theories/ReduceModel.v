(** Model of the tool which reduces a failing case (tools/reduce/src/main.rs): the files it writes, the commands it runs and
    the script by which creduce tells whether a smaller header still shows the problem. *)
From Verif Require Import Base ConfigModel EngineModel MdBookModel.
Local Open Scope list_scope.

(** ** What it was asked to do *)

(** tools/reduce/src/main.rs:233-236 [ReproCase]; the configuration is given as its tokens, the text of which syn reads. *)
Record repro_case := ReproCase { rp_config : list tok; rp_header : string }.
(** The two subcommands of tools/reduce/src/main.rs:38-217 [main], as clap hands them over. For a repro case the content of its file, and
    the name and content of the header with which to resume. *)
Inductive input :=
| InFile (inc define headers directives : list string)
| InRepro (case : repro_case) (header : option (string * string)).
(** The other arguments of tools/reduce/src/main.rs:38-217 [main], with the defaults filled in; [rd_keep] only prints a line. *)
Record reduce_args := ReduceArgs {
  rd_input : input; rd_problem : string; rd_creduce : string; rd_output : option string; rd_gen_cmd : string;
  rd_rustc : string; rd_rlibs : list string; rd_clang_args : list string; rd_creduce_args : list string;
  rd_no_precompile : bool; rd_no_postcompile : bool; rd_no_rustc : bool; rd_suppress : string }.

(** What is written into a file: a text, or a macro call of which the tokens are printed. *)
Inductive content := Text (s : string) | IncludeCpp (ts : list tok).
(** What the tool does to the world. Starting a process which ends with a failure is no failure of the tool, except for the preprocessor. *)
Inductive action :=
| Write (path : string) (c : content)
| Preprocess (args : list string) (stdout : string)
| Copy (from to : string)
| Run (cmd : string) (args : list string) (dir : option string)
| Print (path : string).

(** [Path::join] with a plain name. *)
Definition under (dir name : string) : string := dir +++ "/" +++ name.

(** ** The definitions which keep cxx from being included twice *)

(** The class [\w] of a regex, for ASCII. *)
Definition is_word (c : ascii) : bool :=
  let n := Ascii.nat_of_ascii c in
  (Nat.leb 48 n && Nat.leb n 57) || (Nat.leb 65 n && Nat.leb n 90) || (Nat.leb 97 n && Nat.leb n 122) || Nat.eqb n 95.
(** The word at the start of a text. *)
Fixpoint word_of (s : string) : string :=
  match s with String c r => if is_word c then String c (word_of r) else "" | EmptyString => "" end.
(** tools/reduce/src/main.rs:586-593, inside get_cxx_suppressions: the matches of the regex, [prev] telling whether the character before is of a
    word. A match is as long as can be, so that the next can only start after it. *)
Fixpoint find_defines (prev : bool) (s : string) : list string :=
  match s with
  | EmptyString => []
  | String c r =>
      (if negb prev && starts_with "CXXBRIDGE1_" s && Nat.ltb 11 (String.length (word_of s)) then [word_of s] else [])
      ++ find_defines (is_word c) r
  end.
(** tools/reduce/src/main.rs:586-593 [get_cxx_suppressions], for the text of [cxx_gen::HEADER]. *)
Definition get_cxx_suppressions (header : string) : list string :=
  map (fun d => "-D" +++ d) (fold_left (fun acc w => sinsert w acc) (find_defines false header) []).

(** tools/reduce/src/main.rs:364-369 [detect_cxx_h] *)
Definition detect_cxx_h (haystack : string) : bool :=
  forallb (fun needle => contains needle haystack) ["class Box"; "class Vec"; "class Slice"].

(** ** Commands *)

(** engine/src/lib.rs:725-742 [preprocess]: the arguments given to clang. *)
Definition preprocess_args (listing : string) (incs extra : list string) : list string :=
  ["-E"; "-C"] ++ make_clang_args incs extra ++ [listing].

(** tools/reduce/src/main.rs:452-471 [format_gen_cmd] *)
Definition format_gen_cmd (rs_file dir : string) (extra : list string) : list string :=
  ["-o"; dir; "-I"; dir; rs_file; "--gen-rs-include"; "--gen-cpp"; "--suppress-system-headers"; "--"] ++ extra.

(** tools/reduce/src/main.rs:385-386 [REMOVE_PASS_LINE_MARKERS] [SKIP_INITIAL_PASSES] and tools/reduce/src/main.rs:400-425 [run_creduce] *)
Definition creduce_args (supports_remove_pass : bool) (test concat : string) (user : list string) : list string :=
  test :: concat :: user
  ++ (if supports_remove_pass then ["--remove-pass"; "pass_line_markers"; "*"] else ["--skip-initial-passes"]).

(** tools/reduce/src/main.rs:547-558 [make_compile_step]; [clang] is what engine/src/lib.rs:746-754 [get_clang_path] finds. *)
Definition make_compile_step (clang : string) (enabled : bool) (file : string) (extra : list string) : string :=
  if enabled then clang +++ " " +++ Base.join " " (make_clang_args ["."] extra) +++ " -c " +++ file
  else "echo 'Skipping compilation'".

(** The file of bindings which the script shows and compiles. *)
Definition script_rs : string := "autocxx-ffi-default-gen.rs".

(** tools/reduce/src/main.rs:503-508, inside create_interestingness_test *)
Definition rustc_step (a : reduce_args) : string :=
  if negb (rd_no_rustc a) then
    rd_rustc a +++ " --extern cxx --extern autocxx " +++ Base.join " " (map (fun p => " -L" +++ p) (rd_rlibs a))
    +++ " --crate-type rlib --emit=metadata --edition=2021 " +++ script_rs +++ " 2>&1"
  else "echo Skipping rustc".

(** tools/reduce/src/main.rs:473-545 [create_interestingness_test]: the lines of the script. *)
Definition codegen_line (clang : string) (a : reduce_args) (problem : option string) (rs_file : string) (extra : list string) : string :=
  "(" +++ rd_gen_cmd a +++ " " +++ Base.join " " (format_gen_cmd rs_file "$(pwd)" extra) +++ " 2>&1 && cat " +++ script_rs
  +++ " && cat autocxxgen*.h && " +++ rustc_step a +++ " && "
  +++ make_compile_step clang (negb (rd_no_postcompile a)) "gen0.cc" extra +++ " 2>&1) "
  +++ match problem with Some p => "| grep -q " +++ quote +++ p +++ quote +++ "  >/dev/null  2>&1" | None => "" end.
Definition test_script (clang : string) (a : reduce_args) (problem : option string) (rs_file : string) (extra : list string) : string :=
  MdBookModel.join
    ["#!/bin/bash"; "set -e"; "echo Precompile"; make_compile_step clang (negb (rd_no_precompile a)) "concat.h" extra;
     "echo Move"; "mv concat.h concat-body.h";
     "(echo " +++ quote +++ "#ifndef __CONCAT_H__" +++ quote +++ "; echo " +++ quote +++ "#define __CONCAT_H__" +++ quote
     +++ "; echo '#include " +++ quote +++ "concat-body.h" +++ quote +++ "'; echo " +++ quote +++ "#endif" +++ quote +++ ") > concat.h";
     "echo Codegen"; codegen_line clang a problem rs_file extra;
     "echo Remove"; "rm concat.h"; "echo Swap back"; "mv concat-body.h concat.h"; "echo Done"; ""].

(** What bash makes of the codegen line: each command of the chain has a status and an output, and is only run if the one before it succeeded. *)
Fixpoint chain_output (l : list (bool * string)) : string :=
  match l with [] => "" | (ok, out) :: r => out +++ (if ok then chain_output r else "") end.
(** What the commands of the chain of tools/reduce/src/main.rs:526-526, inside create_interestingness_test, do: the generator leaves files in the current directory,
    and [cat] fails without the file it is to show. *)
Record attempt := Attempt {
  at_precompile : bool; at_gen : bool * string; at_files : list (string * string); at_headers : bool * string; at_rustc : bool * string; at_post : bool * string }.
Definition cat_file (files : list (string * string)) (name : string) : bool * string :=
  match sget name files with Some t => (true, t) | None => (false, "") end.
(** tools/reduce/src/main.rs:516-533, inside create_interestingness_test: with [set -e] the script ends at the first failure, that of a pipe being the one of its last command, here grep.
    The patterns of grep are taken for plain texts, looked for in the whole output instead of in each line. *)
Definition interesting (problem : string) (w : attempt) : bool :=
  at_precompile w
  && contains problem (chain_output [at_gen w; cat_file (at_files w) script_rs; at_headers w; at_rustc w; at_post w]).

(** ** Files *)

(** tools/reduce/src/main.rs:571-578 [create_concatenated_header] *)
Definition concatenated_header (headers : list string) : string :=
  String.concat "" (map (fun h => "#include " +++ quote +++ h +++ quote +++ nl) headers).

(** tools/reduce/src/main.rs:560-569 [create_rs_file] *)
Definition rs_file_text (directives : list string) : string :=
  "use autocxx::include_cpp;" +++ nl +++ "include_cpp! (" +++ nl +++ String.concat "" directives +++ ");" +++ nl.

(** tools/reduce/src/main.rs:273-279, inside do_run: the configuration is read, its headers replaced, and printed. *)
Definition rewrite_config (ts : list tok) : outcome (list tok) :=
  match parse_config default_config ts with
  | ROk c => match to_tokens (replace_included_headers "concat.h" c) with ROk r => Done r | _ => Panics end
  | _ => Panics
  end.

(** engine/src/lib.rs:565-582, inside dump_header_if_so_configured: the case written when AUTOCXX_REPRO_CASE is set, for what the preprocessor made of the headers. *)
Definition repro_of (c : config) (preprocessed : string) : outcome repro_case :=
  match to_tokens c with ROk ts => Done (ReproCase ts preprocessed) | _ => Panics end.

Section DoRun.
(** The directory made for the run, the compiler, the text of [cxx_gen::HEADER], whether a path exists, what clang prints for some arguments, if it succeeds, and
    whether the help of creduce names [--remove-pass]. *)
Variable tmp clang cxx_header : string.
Variable path_exists : string -> bool.
Variable clang_stdout : list string -> option string.
Variable supports_remove_pass : bool.

(** tools/reduce/src/main.rs:239-286, inside do_run: the Rust file and the header, and the text of the header. *)
Definition prepare (i : input) : outcome (list action * string) :=
  let rs := under tmp "input.rs" in
  let concat := under tmp "concat.h" in
  match i with
  | InFile inc define headers directives =>
      match headers with
      | [] => Panics
      | _ =>
          let listing := under tmp "listing.h" in
          let args := preprocess_args listing inc define in
          match clang_stdout args with
          | None => Panics
          | Some text =>
              Done ([Write listing (Text (concatenated_header headers)); Preprocess args text; Write concat (Text text);
                     Write rs (Text (rs_file_text (("#include " +++ quote +++ "concat.h" +++ quote +++ nl) :: map (fun d => d +++ nl) directives)))], text)
          end
      end
  | InRepro case header =>
      match rewrite_config (rp_config case) with
      | Done ts =>
          Done (Write rs (IncludeCpp ts)
                :: match header with Some (h, _) => [Copy h concat] | None => [Write concat (Text (rp_header case))] end,
                match header with Some (_, text) => text | None => rp_header case end)
      | Fails e => Fails e
      | Panics => Panics
      end
  end.

(** tools/reduce/src/main.rs:288-307, inside do_run *)
Definition extra_clang_args (a : reduce_args) (concat_text : string) : outcome (list string) :=
  let with_suppressions (b : bool) := Done (rd_clang_args a ++ (if b then get_cxx_suppressions cxx_header else [])) in
  if String.eqb (rd_suppress a) "yes" then with_suppressions true
  else if String.eqb (rd_suppress a) "no" then with_suppressions false
  else if String.eqb (rd_suppress a) "auto" then with_suppressions (detect_cxx_h concat_text)
  else Panics.

(** tools/reduce/src/main.rs:238-358 [do_run], tools/reduce/src/main.rs:427-439 [run_sample_gen_cmd],
    tools/reduce/src/main.rs:441-450 [run_demo_interestingness_test], tools/reduce/src/main.rs:375-380 [print_minimized_case],
    tools/reduce/src/main.rs:580-584 [create_file]. Failures to write or copy a file or to start a
    process are not modelled. *)
Definition do_run (a : reduce_args) : outcome (list action) :=
  let rs := under tmp "input.rs" in
  let concat := under tmp "concat.h" in
  match prepare (rd_input a) with
  | Done (acts, text) =>
      match extra_clang_args a text with
      | Done extra =>
          if negb (path_exists (rd_gen_cmd a)) then Panics
          else
            let demo := under tmp "demo-interestingness-test" in
            let demo_test := under demo "test-demo.sh" in
            let test := under tmp "test.sh" in
            Done (acts
                  ++ [Run (rd_gen_cmd a) (format_gen_cmd rs tmp extra) None;
                      Write demo_test (Text (test_script clang a None rs extra));
                      Copy concat (under demo "concat.h");
                      Run demo_test [] (Some demo);
                      Write test (Text (test_script clang a (Some (rd_problem a)) rs extra));
                      Run (rd_creduce a) (creduce_args supports_remove_pass test concat (rd_creduce_args a)) None;
                      match rd_output a with None => Print concat | Some o => Copy concat o end])
      | Fails e => Fails e
      | Panics => Panics
      end
  | Fails e => Fails e
  | Panics => Panics
  end.
End DoRun.
