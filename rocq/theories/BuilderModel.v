(** Model of the builder used from build scripts (engine/src/builder.rs) as a whole: its options, what it hands to the
    parser, to bindgen and to the C++ compiler, and the files it writes and lists. *)
From Verif Require Import Base ConfigModel DiscoverModel EngineModel ParseFileModel LocationsModel.
Local Open Scope list_scope.

(** engine/src/builder.rs:77-93 [Builder], with the options of engine/src/lib.rs:812-833 [CppCodegenOptions] and engine/src/lib.rs:152-158 [CodegenOptions] which can be set through it. The Rust file has been read and split into
    items. Simplified: the header namers and the paths of cxx.h and cxxgen.h are left at their defaults; the recorder of dependencies is not part of the model. *)
Record builder := Builder {
  bl_items : list item; bl_incs : list string; bl_clang_args : list string; bl_gendir : option string; bl_auto : bool;
  bl_force : bool; bl_suppress : bool; bl_annotations : option string }.

(** engine/src/builder.rs:104-122 [new] *)
Definition new_builder (items : list item) (incs : list string) : builder := Builder items incs [] None false false false None.

(** The methods which set options: engine/src/builder.rs:127-130 [extra_clang_args], engine/src/builder.rs:133-136 [custom_gendir],
    engine/src/builder.rs:139-145 [cpp_codegen_options], engine/src/builder.rs:161-164 [auto_allowlist], engine/src/builder.rs:170-173 [force_wrapper_generation],
    engine/src/builder.rs:180-185 [suppress_system_headers], engine/src/builder.rs:189-194 [cxx_impl_annotations]. *)
Inductive setting :=
| SetClangArgs (l : list string) | SetGendir (d : string) | SetCpp (f : bool -> option string -> bool * option string) | SetAuto (v : bool)
| SetForce (v : bool) | SetSuppress (v : bool) | SetAnnotations (a : option string).
Definition set_option (b : builder) (s : setting) : builder :=
  match b with
  | Builder items incs args dir auto force sup ann =>
      match s with
      | SetClangArgs l => Builder items incs l dir auto force sup ann
      | SetGendir d => Builder items incs args (Some d) auto force sup ann
      | SetCpp f => let '(sup', ann') := f sup ann in Builder items incs args dir auto force sup' ann'
      | SetAuto v => Builder items incs args dir v force sup ann
      | SetForce v => Builder items incs args dir auto v sup ann
      | SetSuppress v => Builder items incs args dir auto force v ann
      | SetAnnotations a => Builder items incs args dir auto force sup a
      end
  end.

(** parser/src/file_locations.rs:133-135 [get_include_dir], parser/src/file_locations.rs:138-140 [get_cxx_dir] *)
Definition get_include_dir (s : strategy) : outcome string := get_gen_dir s "include".
Definition get_cxx_dir (s : strategy) : outcome string := get_gen_dir s "cxx".

(** engine/src/builder.rs:309-319 [build_autocxx_inc] *)
Definition build_autocxx_inc (paths : list string) (extra : string) : list string := paths ++ [extra].

(** engine/src/builder.rs:46-46 [BuilderSuccess]: the include directories and the files given to the C++ compiler, the Rust files and the C++ files generated. *)
Record built := Built { bt_includes : list string; bt_files : list string; bt_rs : list string; bt_cpp : list string }.
(** How it ends: well, with one of the errors of engine/src/builder.rs:26-38 [BuilderError], or in a panic. *)
Inductive build_end := BuildOk (b : built) | BuildParseError (e : perr) | BuildInvalidCxx (e : eng_err) | BuildNoMacros | BuildPanics.

Section Build.
Variable hash : config -> string.
Variable nightly : bool.
Variable prelude : string.
(** Bindgen, the parsing of its output and the conversion, with or without wrappers everywhere. *)
Variable convert : bool -> request -> config -> outcome conversion.
(** cxx's code generator, with the annotation of functions. *)
Variable cxx_gen : option string -> string -> string -> outcome (string * string).
Variable with_self : self_type -> signature -> signature.
Variable print_mod : string -> string -> string.
(** The text of [cxx_gen::HEADER], the items of the bridge of a name, and the name the header namer gives to the header of the bridge of a number. *)
Variable cxx_header : string.
Variable bridge_items : string -> string.
Variable bridge_name : nat -> string.

(** engine/src/parse_file.rs:355-369 [include_dirs] *)
Fixpoint all_include_dirs (l : list engine) : outcome (list string) :=
  match l with
  | [] => Done []
  | e :: l' =>
      match include_dirs e with
      | Done d => match all_include_dirs l' with Done r => Done (d ++ r) | x => x end
      | x => x
      end
  end.

(** engine/src/parse_file.rs:281-286 [CppBuildable]: engine/src/lib.rs:684-706 [generate_h_and_cxx] of a block and engine/src/cxxbridge.rs:37-44 [generate_h_and_cxx] of a bridge, the [k]th one. *)
Definition buildable_pairs (b : builder) (k : nat) (x : cpp_buildable) : outcome (list cpp_pair) :=
  match x with
  | BEngine e => generate_h_and_cxx (cxx_gen (bl_annotations b)) (bl_suppress b) e
  | BCxx id =>
      match do_cxx_cpp_generation (cxx_gen (bl_annotations b)) id (bridge_items id) (bl_suppress b) (bridge_name k) with
      | Done p => Done [p]
      | Fails e => Fails e
      | Panics => Panics
      end
  end.
Definition is_bridge (x : cpp_buildable) : bool := match x with BCxx _ => true | BEngine _ => false end.

(** engine/src/builder.rs:276-286, inside build_listing_files: the files of one pair: what is written, what is compiled and what is listed. *)
Definition gen_cxx (n : nat) : string := "gen" +++ dec n +++ ".cxx".
Definition pair_files (cxxdir incdir : string) (counter : nat) (p : cpp_pair) : list (string * string) * list string * list string :=
  let h := jpath incdir (cp_name p) in
  match cp_impl p with
  | Some i => let f := jpath cxxdir (gen_cxx counter) in ([(f, i); (h, cp_header p)], [f], [f; h])
  | None => ([(h, cp_header p)], [], [h])
  end.
Fixpoint pairs_files (cxxdir incdir : string) (counter : nat) (l : list cpp_pair) : list (string * string) * list string * list string :=
  match l with
  | [] => ([], [], [])
  | p :: l' =>
      let '(w, f, g) := pair_files cxxdir incdir counter p in
      let '(w', f', g') := pairs_files cxxdir incdir (S counter) l' in
      (w ++ w', f ++ f', g ++ g')
  end.

(** engine/src/builder.rs:272-287, inside build_listing_files: the loop over all that C++ is generated for. *)
Fixpoint build_cpp (b : builder) (cxxdir incdir : string) (counter k : nat) (l : list cpp_buildable)
  : list (string * string) * outcome (list string * list string * nat) :=
  match l with
  | [] => ([], Done ([], [], counter))
  | x :: l' =>
      match buildable_pairs b k x with
      | Done ps =>
          let '(w, f, g) := pairs_files cxxdir incdir counter ps in
          match build_cpp b cxxdir incdir (counter + List.length ps) (if is_bridge x then S k else k) l' with
          | (w', Done (f', g', n)) => (w ++ w', Done (f ++ f', g ++ g', n))
          | (w', o) => (w ++ w', o)
          end
      | Fails e => ([], Fails e)
      | Panics => ([], Panics)
      end
  end.

(** engine/src/builder.rs:221-301 [build_listing_files]: what is written, in order, and how it ends. The Rust version is high enough, directories can be made and files
    written; see OutputModel for files which already have the content. *)
Definition build_listing_files (e : env) (b : builder) : list (string * string) * build_end :=
  let s := match bl_gendir b with None => new_strategy e | Some d => Custom d end in
  match get_include_dir s, get_cxx_dir s, get_rs_dir s with
  | Done incdir, Done cxxdir, Done rsdir =>
      let w0 := [(jpath incdir "cxx.h", strip_system_headers cxx_header (bl_suppress b))] in
      let autocxx_inc := build_autocxx_inc (bl_incs b) incdir in
      match parse_file_contents with_self (bl_auto b) (bl_items b) with
      | PErr x => (w0, BuildParseError x)
      | PPanic => (w0, BuildPanics)
      | POk pf =>
          match resolve_all (generate hash nightly prelude (convert (bl_force b)) autocxx_inc (bl_clang_args b)) pf with
          | (_, PErr x) => (w0, BuildParseError x)
          | (_, PPanic) => (w0, BuildPanics)
          | (pf', POk _) =>
              match all_include_dirs (get_autocxxes pf') with
              | Done dirs =>
                  match build_cpp b cxxdir incdir 0 0 (get_cpp_buildables pf') with
                  | (w1, Done (files, cpp, counter)) =>
                      match rs_outputs print_mod (get_autocxxes pf') with
                      | Done outs =>
                          let rs := map (fun ct => (jpath rsdir (get_rs_filename (fst ct)), snd ct)) outs in
                          (w0 ++ w1 ++ rs,
                           if Nat.eqb counter 0 then BuildNoMacros else BuildOk (Built dirs files (map fst rs) cpp))
                      | _ => (w0 ++ w1, BuildPanics)
                      end
                  | (w1, Fails x) => (w0 ++ w1, BuildInvalidCxx x)
                  | (w1, Panics) => (w0 ++ w1, BuildPanics)
                  end
              | _ => (w0, BuildPanics)
              end
          end
      end
  | _, _, _ => ([], BuildPanics)
  end.
End Build.
