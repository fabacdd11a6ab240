(** Model of where generated Rust code is put and found: directories and environment variables (parser/src/file_locations.rs) and
    archives of bindings (parser/src/multi_bindings.rs, engine/src/output_generators.rs). *)
From Verif Require Import Base ConfigModel EngineModel ParseFileModel.
Local Open Scope list_scope.

(** ** Paths *)

(** [PathBuf::join] *)
Definition absolute (p : string) : bool := starts_with "/" p.
Definition jpath (a b : string) : string :=
  if absolute b then b
  else if String.eqb a "" then b
  else if ends_with "/" a then a +++ b
  else a +++ "/" +++ b.

(** ** Strategies *)

(** The environment variables AUTOCXX_RS_JSON_ARCHIVE, AUTOCXX_RS_FILE, AUTOCXX_RS and OUT_DIR. *)
Record env := Env { ev_archive : option string; ev_rs_file : option string; ev_rs : option string; ev_out_dir : option string }.

(** parser/src/file_locations.rs:29-36 [FileLocationStrategy] *)
Inductive strategy :=
| Custom (d : string) | FromAutocxxRsFile (f : string) | FromAutocxxRs (d : string) | FromOutDir (d : string) | FromArchive (f : string) | UnknownMaybeFromOutdir.

(** parser/src/file_locations.rs:45-59 [new] *)
Definition new_strategy (e : env) : strategy :=
  match ev_archive e with
  | Some f => FromArchive f
  | None =>
      match ev_rs_file e with
      | Some f => FromAutocxxRsFile f
      | None =>
          match ev_rs e with
          | None => match ev_out_dir e with None => UnknownMaybeFromOutdir | Some d => FromOutDir d end
          | Some d => FromAutocxxRs d
          end
      end
  end.

(** parser/src/file_locations.rs:109-125 [get_gen_dir] *)
Definition get_gen_dir (s : strategy) (suffix : string) : outcome string :=
  match s with
  | Custom d | FromAutocxxRs d => Done (jpath d suffix)
  | FromOutDir d => Done (jpath (jpath d "autocxx-build-dir") suffix)
  | UnknownMaybeFromOutdir | FromAutocxxRsFile _ | FromArchive _ => Panics
  end.
(** parser/src/file_locations.rs:128-130 [get_rs_dir] *)
Definition get_rs_dir (s : strategy) : outcome string := get_gen_dir s "rs".

(** parser/src/file_locations.rs:144-152 [set_cargo_env_vars_for_build]: the value cargo then gives to AUTOCXX_RS. *)
Definition cargo_env_vars (s : strategy) : outcome (option string) :=
  match s with
  | Custom _ => match get_rs_dir s with Done d => Done (Some d) | Fails x => Fails x | Panics => Panics end
  | _ => Done None
  end.

(** ** Archives *)

Section Archive.
(** parser/src/config.rs:400-404 [get_hash], as text. *)
Variable hash : config -> string.
(** Whether a text is a sequence of Rust tokens. *)
Variable tokens : string -> bool.

(** parser/src/multi_bindings.rs:24-24 [MultiBindings] *)
Definition multi_bindings := list (string * string).
(** parser/src/multi_bindings.rs:38-40 [insert] *)
Definition mb_insert (c : config) (t : string) (m : multi_bindings) : multi_bindings := minsert (hash c) t m.
(** parser/src/multi_bindings.rs:43-50 [get] *)
Inductive mb_err := MissingBindings | BindingsNotParseable.
Definition mb_get (c : config) (m : multi_bindings) : string + mb_err :=
  match sget (hash c) m with
  | None => inr MissingBindings
  | Some t => if tokens t then inl t else inr BindingsNotParseable
  end.

(** engine/src/output_generators.rs:24-30 [generate_rs_archive], before it is written as JSON. *)
Definition rs_archive (outs : list (config * string)) : multi_bindings :=
  fold_left (fun m ct => mb_insert (fst ct) (snd ct) m) outs [].

(** ** The macro *)

(** What the macro is replaced by: nothing, an [include!] of a file, an [include!] of a file below OUT_DIR, or tokens. *)
Inductive expansion := ExNothing | ExInclude (p : string) | ExOutDir (p : string) | ExTokens (t : string).

(** [std::env::split_paths] *)
Fixpoint split_paths (s : string) : list string :=
  match s with
  | EmptyString => [""]
  | String c r =>
      if Ascii.eqb c ":" then "" :: split_paths r
      else match split_paths r with p :: ps => String c p :: ps | [] => [String c ""] end
  end.

(** The files which can be opened, and the archive a text holds when it is read as JSON. *)
Variable open : string -> option string.
Variable of_json : string -> option multi_bindings.

Fixpoint first_open (l : list string) : option string :=
  match l with [] => None | p :: l' => match open p with Some t => Some t | None => first_open l' end end.

(** parser/src/file_locations.rs:68-107 [make_include] *)
Definition make_include (s : strategy) (c : config) : outcome expansion :=
  match s with
  | FromAutocxxRs d => Done (ExInclude (jpath d (get_rs_filename c)))
  | Custom _ => Panics
  | UnknownMaybeFromOutdir | FromOutDir _ => Done (ExOutDir ("/autocxx-build-dir/rs/" +++ get_rs_filename c))
  | FromAutocxxRsFile f => Done (ExInclude f)
  | FromArchive f =>
      match first_open (split_paths f) with
      | None => Panics
      | Some j =>
          match of_json j with
          | None => Panics
          | Some m => match mb_get c m with inl t => Done (ExTokens t) | inr _ => Panics end
          end
      end
  end.

(** parser/src/lib.rs:60-65 [generate_rs] *)
Definition generate_rs (e : env) (c : config) : outcome expansion :=
  if cf_parse_only c then Done ExNothing else make_include (new_strategy e) c.
End Archive.

(** ** The build script *)

(** engine/src/parse_file.rs:308-310 [get_rs_outputs]. [print_mod] writes a module of a name with items as text. *)
Section Outputs.
Variable print_mod : string -> string -> string.
Definition rs_text (o : option (string * string)) : string := match o with Some (m, items) => print_mod m items | None => "" end.
Fixpoint rs_outputs (l : list engine) : outcome (list (config * string)) :=
  match l with
  | [] => Done []
  | e :: l' =>
      match get_rs_output e with
      | Done o => match rs_outputs l' with Done r => Done ((en_config e, rs_text o) :: r) | x => x end
      | Fails x => Fails x
      | Panics => Panics
      end
  end.
End Outputs.

(** engine/src/builder.rs:221-301 [build_listing_files], engine/src/output_generators.rs:41-46 [generate_rs_single]: the Rust files which are
    written and the value of AUTOCXX_RS for the macro. Simplified: only the Rust files. *)
Definition build_rs (e : env) (custom : option string) (outs : list (config * string)) : outcome (list (string * string) * option string) :=
  let s := match custom with None => new_strategy e | Some d => Custom d end in
  match get_rs_dir s, cargo_env_vars s with
  | Done d, Done v => Done (map (fun ct => (jpath d (get_rs_filename (fst ct)), snd ct)) outs, v)
  | _, _ => Panics
  end.
