(** How generated files reach the disk: the writers of the build script
    (engine/src/builder.rs) and of the command line tool (gen/cmd/src/main.rs), the names
    they use, and the dependency file (gen/cmd/src/depfile.rs). *)
From Verif Require Import Base.

(** ** The disk *)

(** Files by path, with a modification time; [fs_clock] only grows. Two
    different path texts are taken to be different files, and directories are
    not represented. *)
Record file := File { fl_content : string; fl_stamp : nat }.
Record fs := FS { fs_files : list (string * file); fs_clock : nat }.

(** What creating a file and writing to it ends with. *)
Inductive io_result := IoOk | IoCreateFails | IoWriteFails.

(** What the tools end with. *)
Inductive out_err := EIo (path : string) | ETwoFiles (name : string) | ETooMany (n : nat) | EFixName | EModNames | EPanic.

Section Disk.
Variable readable : string -> bool.
Variable io : string -> io_result.

(** [File::open] and [read_to_end], or [std::fs::read]. *)
Definition read_file (p : string) (d : fs) : option string :=
  if readable p then match sget p (fs_files d) with Some f => Some (fl_content f) | None => None end else None.
Definition put (p c : string) (d : fs) : fs := FS (sset p (File c (fs_clock d)) (fs_files d)) (S (fs_clock d)).

(** [File::create], which empties the file, then [write_all]: also
    engine/src/builder.rs:334-337 [try_write_to_file]. Simplified: a failing write leaves the file
    empty, not partly written. *)
Definition create_and_write (p c : string) (d : fs) : fs * option out_err :=
  match io p with
  | IoOk => (put p c d, None)
  | IoCreateFails => (d, Some (EIo p))
  | IoWriteFails => (put p "" d, Some (EIo p))
  end.

(** [Path::join] with a relative file name. *)
Definition pjoin (dir name : string) : string := dir +++ "/" +++ name.

(** engine/src/builder.rs:321-332 [write_to_file] *)
Definition builder_write (dir name content : string) (d : fs) : fs * option out_err :=
  let p := pjoin dir name in
  match read_file p d with
  | Some c => if String.eqb c content then (d, None) else create_and_write p content d
  | None => create_and_write p content d
  end.

Fixpoint builder_writes (l : list (string * string * string)) (d : fs) : fs * option out_err :=
  match l with
  | [] => (d, None)
  | (dir, name, content) :: l' =>
      match builder_write dir name content d with
      | (d', None) => builder_writes l' d'
      | e => e
      end
  end.

(** ** The dependency file *)

(** gen/cmd/src/depfile.rs:17-22 [Depfile] *)
Record depfile := Depfile { df_outputs : list string; df_deps : list string }.
(** gen/cmd/src/depfile.rs:25-33 [new] *)
Definition depfile_new : depfile := Depfile [] [].

(** gen/cmd/src/depfile.rs:53-59 [relativize]; [None] is the panic of one of its two [expect]s.
    The crate [pathdiff] is not modelled. *)
Variable relativize : string -> option string.

(** gen/cmd/src/depfile.rs:35-37 [add_dependency] *)
Definition add_dependency (p : string) (f : depfile) : option depfile :=
  match relativize p with Some r => Some (Depfile (df_outputs f) (df_deps f ++ [r])) | None => None end.
(** gen/cmd/src/depfile.rs:39-41 [add_output] *)
Definition add_output (p : string) (f : depfile) : option depfile :=
  match relativize p with Some r => Some (Depfile (df_outputs f ++ [r]) (df_deps f)) | None => None end.

(** The characters of [" \\\n  "] in gen/cmd/src/depfile.rs:43-50 [write]. *)
Definition newline : string := String (Ascii.ascii_of_nat 10) "".
Definition backslash : string := String (Ascii.ascii_of_nat 92) "".
Definition dep_separator : string := " " +++ backslash +++ newline +++ "  ".
(** gen/cmd/src/depfile.rs:43-50 [write]: the text written. *)
Definition depfile_text (f : depfile) : string :=
  let deps := join dep_separator (df_deps f) in
  fold_right (fun o acc => o +++ ": " +++ deps +++ newline +++ newline +++ acc) "" (df_outputs f).

(** ** The command line tool's writer *)

(** gen/cmd/src/main.rs:404-408 [FileWriter], with the disk. *)
Record writer := Writer { w_fs : fs; w_written : list string; w_dep : option depfile }.
Variable outdir : string.

(** gen/cmd/src/main.rs:425-446 [write_to_file] *)
Definition write_to_file (name content : string) (w : writer) : writer * option out_err :=
  let p := pjoin outdir name in
  match match w_dep w with
        | None => Some None
        | Some f => match add_output p f with Some f' => Some (Some f') | None => None end
        end with
  | None => (w, Some EPanic)
  | Some dep =>
      let w := Writer (w_fs w) (w_written w) dep in
      let write :=
        match create_and_write p content (w_fs w) with
        | (d, Some e) => (Writer d (w_written w) dep, Some e)
        | (d, None) =>
            if smem name (w_written w) then (Writer d (w_written w) dep, Some (ETwoFiles name))
            else (Writer d (w_written w ++ [name]) dep, None)
        end in
      match read_file p (w_fs w) with
      | Some c => if String.eqb c content then (w, None) else write
      | None => write
      end
  end.

(** The steps of the tool after all files have been parsed: to write a file, or
    to stop with an error. *)
Inductive step := SWrite (name content : string) | SStop (e : out_err).

Fixpoint run_steps (l : list step) (w : writer) : writer * option out_err :=
  match l with
  | [] => (w, None)
  | SStop e :: _ => (w, Some e)
  | SWrite n c :: l' =>
      match write_to_file n c w with
      | (w', None) => run_steps l' w'
      | e => e
      end
  end.

(** gen/cmd/src/main.rs:27-27 [BLANK] *)
Definition blank : string := "// Blank autocxx placeholder".
(** gen/cmd/src/main.rs:405-423 [write_placeholders] *)
Definition placeholders (counter : nat) (desired : option nat) (name : nat -> string) : list step :=
  match desired with
  | None => []
  | Some n =>
      if n <? counter then [SStop (ETooMany counter)]
      else map (fun i => SWrite (name i) blank) (seq counter (n - counter))
  end.
End Disk.

(** ** Names *)

(** gen/cmd/src/main.rs:383-385 [name_autocxxgen_h] *)
Definition name_autocxxgen_h (n : nat) : string := "autocxxgen" +++ dec n +++ ".h".
(** gen/cmd/src/main.rs:387-389 [name_cxxgen_h] *)
Definition name_cxxgen_h (n : nat) : string := "gen" +++ dec n +++ ".h".
(** gen/cmd/src/main.rs:391-393 [name_include_rs] *)
Definition name_include_rs (n : nat) : string := "gen" +++ dec n +++ ".include.rs".
(** gen/cmd/src/main.rs:310-310 [name_cc_file] *)
Definition name_cc_file (ext : string) (n : nat) : string := "gen" +++ dec n +++ "." +++ ext.

(** engine/src/lib.rs:778-802 [default] (of [CxxgenHeaderNamer]): the name given by the n-th call. *)
Definition default_cxxgen_name (n : nat) : string :=
  if n =? 0 then "cxxgen.h" else "cxxgen" +++ dec n +++ ".h".
(** engine/src/lib.rs:761-765 [default] (of [AutocxxgenHeaderNamer]) *)
Definition default_autocxxgen_name (md : string) : string := "autocxxgen_" +++ md +++ ".h".

(** The two namers of gen/cmd/src/main.rs:87-381 [main]: [exact] if the number of files is fixed. *)
Definition cxxgen_name (exact : bool) (n : nat) : string :=
  if exact then name_cxxgen_h n else default_cxxgen_name n.
Definition autocxxgen_name (exact : bool) (n : nat) (md : string) : string :=
  if exact then name_autocxxgen_h n else default_autocxxgen_name md.

(** ** The blocks of the input *)

(** An [include_cpp!] block as far as its files go: the module name, whether it
    is parsed only, the text of the header and source which cxx writes for it,
    the text of the additional header and source (there may be neither, or
    no source), the name of its Rust file and its Rust code. *)
Record block := Block {
  b_mod : string; b_parse_only : bool; b_cxx_h : string; b_cxx_cc : string;
  b_extra : option (string * option string); b_rs_name : string; b_rs : string }.
(** Something which leads to C++ code (engine/src/parse_file.rs:312-335 [get_cpp_buildables]). *)
Inductive buildable := BAuto (b : block) | BBridge (h cc : string).

(** engine/src/lib.rs:77-85 [CppFilePair] *)
Record pair := Pair { p_header_name : string; p_header : string; p_impl : option string }.

(** What a block holds after engine/src/lib.rs:452-540 [generate]. *)
Inductive generated := GAuto (b : block) (names : option (string * option string)) | GBridge (h cc : string).

(** engine/src/parse_file.rs:371-403 [resolve_all] for one file: module names must be different; each
    block takes the names of its headers in turn (engine/src/conversion/mod.rs:109-212 [convert],
    engine/src/conversion/codegen_cpp/mod.rs:227-263 [generate]). The calls take place in
    order of the blocks; [cxx::bridge] modules take their names later. *)
Fixpoint resolve (exact : bool) (seen : list string) (cx ac : nat) (l : list buildable)
  : res (list generated * nat * nat) out_err :=
  match l with
  | [] => Ok ([], cx, ac)
  | BBridge h cc :: l' =>
      match resolve exact seen cx ac l' with
      | Ok (r, cx', ac') => Ok (GBridge h cc :: r, cx', ac')
      | Err e => Err e
      end
  | BAuto b :: l' =>
      if smem (b_mod b) seen then Err EModNames
      else
        let seen := b_mod b :: seen in
        if b_parse_only b then
          match resolve exact seen cx ac l' with
          | Ok (r, cx', ac') => Ok (GAuto b None :: r, cx', ac')
          | Err e => Err e
          end
        else
          let n := cxxgen_name exact cx in
          let x := match b_extra b with Some _ => Some (autocxxgen_name exact ac (b_mod b)) | None => None end in
          match resolve exact seen (S cx) (match x with Some _ => S ac | None => ac end) l' with
          | Ok (r, cx', ac') => Ok (GAuto b (Some (n, x)) :: r, cx', ac')
          | Err e => Err e
          end
  end.

(** All the input files, in order. *)
Fixpoint resolve_files (exact : bool) (cx ac : nat) (l : list (list buildable))
  : res (list generated * nat * nat) out_err :=
  match l with
  | [] => Ok ([], cx, ac)
  | f :: l' =>
      match resolve exact [] cx ac f with
      | Err e => Err e
      | Ok (r, cx1, ac1) =>
          match resolve_files exact cx1 ac1 l' with
          | Err e => Err e
          | Ok (r', cx2, ac2) => Ok (r ++ r', cx2, ac2)
          end
      end
  end.

(** engine/src/lib.rs:684-706 [generate_h_and_cxx] and engine/src/cxxbridge.rs:37-44 [generate_h_and_cxx]; [None] is
    the panic on a block which is only parsed. *)
Definition pairs_of (exact : bool) (cx : nat) (g : generated) : option (list pair * nat) :=
  match g with
  | GAuto b None => None
  | GAuto b (Some (n, x)) =>
      Some (Pair n (b_cxx_h b) (Some (b_cxx_cc b))
            :: match x, b_extra b with Some xn, Some (h, cc) => [Pair xn h cc] | _, _ => [] end, cx)
  | GBridge h cc => Some ([Pair (cxxgen_name exact cx) h (Some cc)], S cx)
  end.

(** ** The command line tool *)

(** The options which matter here. *)
Record options := Options {
  o_gen_cpp : bool; o_ext : string; o_exact : option nat; o_cxx_h : bool;
  o_rs_include : bool; o_fix_rs : bool; o_archive : bool }.

Definition is_exact (o : options) : bool := match o_exact o with Some _ => true | None => false end.

(** The loop over the C++ buildables in gen/cmd/src/main.rs:87-381 [main]. *)
Definition pair_steps (ext : string) (counter : nat) (p : pair) : list step :=
  [SWrite (name_cc_file ext counter) (match p_impl p with Some c => c | None => "" end);
   SWrite (p_header_name p) (p_header p)].
Fixpoint pairs_steps (ext : string) (counter : nat) (l : list pair) : list step :=
  match l with
  | [] => []
  | p :: l' => (pair_steps ext counter p ++ pairs_steps ext (S counter) l')%list
  end.
Fixpoint cpp_steps (exact : bool) (ext : string) (counter cx : nat) (l : list generated) : list step * option (nat * nat) :=
  match l with
  | [] => ([], Some (counter, cx))
  | g :: l' =>
      match pairs_of exact cx g with
      | None => ([SStop EPanic], None)
      | Some (ps, cx') =>
          let '(st, r) := cpp_steps exact ext (counter + List.length ps) cx' l' in
          ((pairs_steps ext counter ps ++ st)%list, r)
      end
  end.

(** engine/src/parse_file.rs:307-309 [get_rs_outputs], engine/src/lib.rs:417-426 [get_rs_output]: a block which is only parsed has
    empty code. *)
Definition rs_outputs (l : list generated) : list (string * string) :=
  flat_map (fun g => match g with
                     | GAuto b (Some _) => [(b_rs_name b, b_rs b)]
                     | GAuto b None => [(b_rs_name b, "")]
                     | GBridge _ _ => []
                     end) l.
Fixpoint rs_steps (fix_name : bool) (counter : nat) (l : list (string * string)) : list step :=
  match l with
  | [] => []
  | (n, c) :: l' => SWrite (if fix_name then name_include_rs counter else n) c :: rs_steps fix_name (S counter) l'
  end.

(** gen/cmd/src/main.rs:87-381 [main], from the creation of the [FileWriter] to the archive: the steps
    taken for the generated code. [cxx_h] is the text of [cxx.h], [archive] that of the archive. *)
Definition plan (o : options) (cxx_h archive : string) (gs : list generated) (cx ac : nat) : list step :=
  ((if o_gen_cpp o then
      let '(st, r) := cpp_steps (is_exact o) (o_ext o) 0 cx gs in
      st ++ match r with
            | None => []
            | Some (counter, cx') =>
                placeholders counter (o_exact o) (name_cc_file (o_ext o))
                ++ placeholders cx' (o_exact o) name_cxxgen_h
                ++ placeholders ac (o_exact o) name_autocxxgen_h
            end
    else [])
   ++ (if o_cxx_h o then [SWrite "cxx.h" cxx_h] else [])
   ++ (if o_rs_include o then
         if negb (o_fix_rs o) && is_exact o then [SStop EFixName]
         else rs_steps (o_fix_rs o) 0 (rs_outputs gs)
              ++ placeholders (List.length (rs_outputs gs)) (o_exact o) name_include_rs
       else [])
   ++ (if o_archive o then [SWrite "gen.rs.json" archive] else []))%list.

Section Tool.
Variable readable : string -> bool.
Variable io : string -> io_result.
Variable relativize : string -> option string.
Variable outdir : string.

(** gen/cmd/src/main.rs:87-381 [main]: the whole of it, from the parsed files. *)
Definition tool (o : options) (cxx_h archive : string) (files : list (list buildable)) (d : fs) (dep : option depfile)
  : writer * option out_err :=
  match resolve_files (is_exact o) 0 0 files with
  | Err e => (Writer d [] dep, Some e)
  | Ok (gs, cx, ac) => run_steps readable io relativize outdir (plan o cxx_h archive gs cx ac) (Writer d [] dep)
  end.
End Tool.

(** ** The build script *)

(** engine/src/builder.rs:221-301 [build_listing_files]: what it writes, in order; the directories come from
    the location strategy. [None] is the panic on a block which is only parsed. Simplified: the
    check that there is any buildable, made at the end, is left out. *)
Fixpoint build_cpp_writes (cxxdir incdir : string) (counter cx : nat) (l : list generated)
  : option (list (string * string * string)) :=
  match l with
  | [] => Some []
  | g :: l' =>
      match pairs_of false cx g with
      | None => None
      | Some (ps, cx') =>
          match build_cpp_writes cxxdir incdir (counter + List.length ps) cx' l' with
          | None => None
          | Some ws =>
              Some (flat_map (fun ip => (match p_impl (snd ip) with
                                         | Some c => [(cxxdir, "gen" +++ dec (fst ip) +++ ".cxx", c)]
                                         | None => []
                                         end ++ [(incdir, p_header_name (snd ip), p_header (snd ip))])%list)
                      (combine (seq counter (List.length ps)) ps) ++ ws)%list
          end
      end
  end.
Definition build_writes (cxxdir incdir rsdir cxx_h : string) (l : list generated) (cx : nat)
  : option (list (string * string * string)) :=
  match build_cpp_writes cxxdir incdir 0 cx l with
  | None => None
  | Some ws => Some ((incdir, "cxx.h", cxx_h) :: ws ++ map (fun r => (rsdir, fst r, snd r)) (rs_outputs l))%list
  end.
