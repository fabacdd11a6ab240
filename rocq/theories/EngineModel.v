(** Model of the life of an [include_cpp!] block (engine/src/lib.rs): the states through which it
    goes and what its methods do in each, and of the removal of
    system headers from generated C++. *)
From Verif Require Import Base ConfigModel.
Local Open Scope list_scope.

(** ** Outcomes *)

(** engine/src/lib.rs:116-132 [Error]; [EngConversion] also stands for the failures of bindgen and of
    parsing its output. *)
Inductive eng_err := EngMacroParsing | EngConversion (msg : string) | EngWrappedReferences | EngCxx (msg : string).
Inductive outcome (A : Type) := Done (a : A) | Fails (e : eng_err) | Panics.
Arguments Done {A} a. Arguments Fails {A} e. Arguments Panics {A}.

(** ** The engine *)

(** engine/src/lib.rs:77-85 [CppFilePair] *)
Record cpp_pair := CppPair { cp_header : string; cp_impl : option string; cp_name : string }.

(** What engine/src/conversion/mod.rs:109-212 [convert] gives. *)
Record conversion := Conversion { cv_items : string; cv_cpp : option cpp_pair; cv_header_name : string }.

(** engine/src/lib.rs:137-143 [GenerationResults]: the module is its name and its items. *)
Record generation := Generation { gn_mod : string; gn_items : string; gn_cpp : option cpp_pair; gn_incs : list string; gn_header_name : string }.

(** engine/src/lib.rs:144-148 [State] *)
Inductive eng_state := NotGenerated | ParseOnly | Generated (g : generation).

(** engine/src/lib.rs:269-273 [IncludeCppEngine]. Simplified: without the source code, which is used in messages only. *)
Record engine := Engine { en_config : config; en_state : eng_state }.

(** engine/src/lib.rs:276-288 [parse] *)
Definition engine_parse (ts : list tok) : outcome engine :=
  match parse_config default_config ts with
  | ROk c => Done (Engine c (if cf_parse_only c then ParseOnly else NotGenerated))
  | RErr _ => Fails EngMacroParsing
  | RPanic => Panics
  end.

(** engine/src/lib.rs:302-308 [new_for_autodiscover] *)
Definition new_for_autodiscover : engine := Engine default_config NotGenerated.

(** engine/src/lib.rs:310-316 [config_mut], with what is then done to the configuration. *)
Definition config_mut (f : config -> config) (e : engine) : outcome engine :=
  match en_state e with NotGenerated => Done (Engine (f (en_config e)) NotGenerated) | _ => Panics end.

(** engine/src/lib.rs:318-326 [build_header] *)
Definition nl : string := String (Ascii.ascii_of_nat 10) "".
Definition quote : string := String (Ascii.ascii_of_nat 34) "".
Definition build_header (c : config) : string :=
  join "" (map (fun p => "#include " +++ quote +++ p +++ quote +++ nl) (cf_inclusions c)).

(** engine/src/lib.rs:160-160 [AUTOCXX_CLANG_ARGS] *)
Definition autocxx_clang_args : list string := ["-x"; "c++"; "-std=c++14"; "-DBINDGEN"].
(** engine/src/lib.rs:710-721 [make_clang_args] *)
Definition make_clang_args (incs extra : list string) : list string :=
  autocxx_clang_args ++ map (fun i => "-I" +++ i) incs ++ extra.

(** What is given to bindgen by engine/src/lib.rs:328-410 [make_bindgen_builder] and engine/src/lib.rs:452-540 [generate], as far
    as it depends on the input: the arguments for clang, the names on the allowlist (none for
    everything), the opaque types and the header. *)
Record request := Request { rq_args : list string; rq_allow : option (list string); rq_opaque : list string; rq_header : string }.

Section Generate.
Variable hash : config -> string.
(** [rustversion::cfg!(nightly)] *)
Variable nightly : bool.
(** The fixed declarations of engine/src/known_types.rs:180-187 [get_prelude]. *)
Variable prelude : string.
(** Bindgen, the parsing of its output and the conversion. *)
Variable convert : request -> config -> outcome conversion.
(** cxx's code generator: a header and a source for the tokens of a module. *)
Variable cxx_gen : string -> string -> outcome (string * string).

(** engine/src/lib.rs:328-410 [make_bindgen_builder], engine/src/lib.rs:452-540 [generate]; [generate] leaves the engine as it was unless it succeeds. *)
Definition make_request (incs extra : list string) (c : config) : outcome request :=
  match bindgen_allowlist hash c with
  | ROk a => Done (Request (make_clang_args incs extra) a (cf_opaquelist c) (prelude +++ nl +++ nl +++ build_header c))
  | _ => Panics
  end.
Definition generate (incs extra : list string) (e : engine) : engine * outcome unit :=
  match en_state e with
  | ParseOnly => (e, Done tt)
  | Generated _ => (e, Panics)
  | NotGenerated =>
      let c := en_config e in
      match cf_policy c, nightly with
      | ReferencesWrappedAllFunctionsSafe, false => (e, Fails EngWrappedReferences)
      | _, _ =>
          match make_request incs extra c with
          | Panics => (e, Panics)
          | Fails x => (e, Fails x)
          | Done r =>
              match convert r c with
              | Panics => (e, Panics)
              | Fails x => (e, Fails x)
              | Done v => (Engine c (Generated (Generation (get_mod_name c) (cv_items v) (cv_cpp v) incs (cv_header_name v))), Done tt)
              end
          end
      end
  end.

(** engine/src/lib.rs:417-426 [get_rs_output]: the module's name and items; nothing for a block which is only parsed. *)
Definition get_rs_output (e : engine) : outcome (option (string * string)) :=
  match en_state e with
  | NotGenerated => Panics
  | Generated g => Done (Some (gn_mod g, gn_items g))
  | ParseOnly => Done None
  end.

(** engine/src/lib.rs:544-549 [include_dirs] *)
Definition include_dirs (e : engine) : outcome (list string) :=
  match en_state e with Generated g => Done (gn_incs g) | _ => Panics end.

(** ** System headers *)

Definition is_nl (c : ascii) : bool := Ascii.eqb c (Ascii.ascii_of_nat 10).
Definition is_cr (c : ascii) : bool := Ascii.eqb c (Ascii.ascii_of_nat 13).

(** [str::lines]: the text is split at each newline; a carriage return before a newline
    belongs to it; nothing comes after a newline at the end. *)
Fixpoint fields (s : string) : list string :=
  match s with
  | EmptyString => [""]
  | String c r =>
      if is_nl c then "" :: fields r
      else match fields r with f :: fs => String c f :: fs | [] => [String c ""] end
  end.
Fixpoint strip_cr (s : string) : string :=
  match s with
  | EmptyString => ""
  | String c EmptyString => if is_cr c then "" else s
  | String c r => String c (strip_cr r)
  end.
Fixpoint terminated (fs : list string) : list string :=
  match fs with
  | [] => []
  | [f] => if String.eqb f "" then [] else [f]
  | f :: fs' => strip_cr f :: terminated fs'
  end.
Definition lines (s : string) : list string := terminated (fields s).

(** engine/src/lib.rs:668-680 [strip_system_headers]. Simplified: the input is a text; bytes which are not UTF-8, on which it
    would panic, are not among the texts cxx writes. *)
Definition strip_system_headers (s : string) (suppress : bool) : string :=
  if suppress then join nl (filter (fun l => negb (starts_with "#include <" l)) (lines s)) else s.

(** engine/src/lib.rs:642-662 [do_cxx_cpp_generation] *)
Definition do_cxx_cpp_generation (md items : string) (suppress : bool) (name : string) : outcome cpp_pair :=
  match cxx_gen md items with
  | Done (h, i) => Done (CppPair (strip_system_headers h suppress) (Some (strip_system_headers i suppress)) name)
  | Fails x => Fails x
  | Panics => Panics
  end.

(** engine/src/lib.rs:684-706 [generate_h_and_cxx] *)
Definition generate_h_and_cxx (suppress : bool) (e : engine) : outcome (list cpp_pair) :=
  match en_state e with
  | ParseOnly => Panics
  | NotGenerated => Panics
  | Generated g =>
      match do_cxx_cpp_generation (gn_mod g) (gn_items g) suppress (gn_header_name g) with
      | Done p => Done (p :: match gn_cpp g with Some q => [q] | None => [] end)
      | Fails x => Fails x
      | Panics => Panics
      end
  end.

(** ** Calls *)

(** The public methods, and what each gives. *)
Inductive call := CConfigMut (f : config -> config) | CGenerate (incs extra : list string) | CGetRs | CIncludeDirs | CCpp (suppress : bool).
Inductive reply := RUnit | RRs (r : option (string * string)) | RDirs (l : list string) | RCpp (l : list cpp_pair) | RFailed (e : eng_err).

(** One call; nothing if it panics. *)
Definition do_call (k : call) (e : engine) : option (engine * reply) :=
  match k with
  | CConfigMut f => match config_mut f e with Done e' => Some (e', RUnit) | Fails x => Some (e, RFailed x) | Panics => None end
  | CGenerate i x => match generate i x e with (e', Done _) => Some (e', RUnit) | (e', Fails x) => Some (e', RFailed x) | (_, Panics) => None end
  | CGetRs => match get_rs_output e with Done r => Some (e, RRs r) | Fails x => Some (e, RFailed x) | Panics => None end
  | CIncludeDirs => match include_dirs e with Done r => Some (e, RDirs r) | Fails x => Some (e, RFailed x) | Panics => None end
  | CCpp s => match generate_h_and_cxx s e with Done r => Some (e, RCpp r) | Fails x => Some (e, RFailed x) | Panics => None end
  end.

(** Calls up to the first panic; whether there was one; and the engine in the end. *)
Fixpoint do_calls (l : list call) (e : engine) : list (call * reply) * bool * engine :=
  match l with
  | [] => ([], false, e)
  | k :: l' =>
      match do_call k e with
      | None => ([], true, e)
      | Some (e', r) => let '(h, p, e'') := do_calls l' e' in ((k, r) :: h, p, e'')
      end
  end.
End Generate.
