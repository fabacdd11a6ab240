(** Model of the configuration given in an [include_cpp!] macro: how its
    directives are parsed, how it is printed back as tokens for a
    reproduction case, and the decisions taken from it about which C++ names
    are allowlisted or blocked. *)

From Coq Require Import List String Bool.
From Verif Require Import Base.
Import ListNotations.
Open Scope string_scope.
Open Scope list_scope.

(** ** Tokens *)

(** The tokens of the macro input, as [syn] sees them.
    Simplified: spans are left out; a [syn::Signature] and a [syn::TypePath]
    are single tokens, since the code only stores and prints them (parser/src/directives.rs:492-507 [parse],
    parser/src/directives.rs:527-544 [parse]). *)
Record signature := Sig { sig_ident : string; sig_rest : string }.

Inductive tok :=
| TPound | TBang | TComma | TSep | TUnsafe
| TIdent (s : string)
| TStr (s : string)
| TSig (s : signature)
| TType (s : string)
| TGroup (ts : list tok).

(** ** The configuration *)

(** parser/src/config.rs:33-37 [UnsafePolicy] *)
Inductive unsafe_policy := AllFunctionsSafe | AllFunctionsUnsafe | ReferencesWrappedAllFunctionsSafe.

(** parser/src/config.rs:95-98 [AllowlistEntry] *)
Inductive allow_entry := AItem (s : string) | ANamespace (s : string).

(** parser/src/config.rs:111-115 [Allowlist] *)
Inductive allowlist := AUnspecified (l : list allow_entry) | AAll | ASpecific (l : list allow_entry).

(** parser/src/config.rs:159-162 [Subclass] *)
Record subclass := SubC { sc_superclass : string; sc_subclass : string }.

(** parser/src/path.rs:17-17 [RustPath]. *)
Definition rust_path := list string.

(** parser/src/config.rs:165-169 [RustFun] *)
Record rust_fun := RustFun { rf_path : rust_path; rf_sig : signature; rf_has_receiver : bool }.

(** parser/src/config.rs:181-184 [ExternCppType] *)
Record extern_cpp_type := ExtTy { et_rust_path : string; et_opaque : bool }.

(** parser/src/config.rs:213-231 [IncludeCppConfig]. The two [IndexMap]s are
    association lists in insertion order. *)
Record config := Config {
  cf_inclusions : list string;
  cf_policy : unsafe_policy;
  cf_parse_only : bool;
  cf_exclude_impls : bool;
  cf_pod_requests : list string;
  cf_allowlist : allowlist;
  cf_blocklist : list string;
  cf_constructor_blocklist : list string;
  cf_instantiable : list string;
  cf_exclude_utilities : bool;
  cf_mod_name : option string;
  cf_rust_types : list rust_path;
  cf_subclasses : list subclass;
  cf_extern_rust_funs : list rust_fun;
  cf_concretes : list (string * string);
  cf_externs : list (string * extern_cpp_type);
  cf_opaquelist : list string }.

(** parser/src/config.rs:40-42 [default], parser/src/config.rs:153-155 [default],
    parser/src/config.rs:213-231 [IncludeCppConfig] (derived [Default]). *)
Definition default_config : config :=
  Config [] AllFunctionsUnsafe false false [] (AUnspecified []) [] [] [] false None [] [] [] [] [] [].

(** Field assignments, as the directives make them. *)
Definition set_inclusions f c := Config (f (cf_inclusions c)) (cf_policy c) (cf_parse_only c) (cf_exclude_impls c) (cf_pod_requests c) (cf_allowlist c) (cf_blocklist c) (cf_constructor_blocklist c) (cf_instantiable c) (cf_exclude_utilities c) (cf_mod_name c) (cf_rust_types c) (cf_subclasses c) (cf_extern_rust_funs c) (cf_concretes c) (cf_externs c) (cf_opaquelist c).
Definition set_policy v c := Config (cf_inclusions c) v (cf_parse_only c) (cf_exclude_impls c) (cf_pod_requests c) (cf_allowlist c) (cf_blocklist c) (cf_constructor_blocklist c) (cf_instantiable c) (cf_exclude_utilities c) (cf_mod_name c) (cf_rust_types c) (cf_subclasses c) (cf_extern_rust_funs c) (cf_concretes c) (cf_externs c) (cf_opaquelist c).
Definition set_parse_only v c := Config (cf_inclusions c) (cf_policy c) v (cf_exclude_impls c) (cf_pod_requests c) (cf_allowlist c) (cf_blocklist c) (cf_constructor_blocklist c) (cf_instantiable c) (cf_exclude_utilities c) (cf_mod_name c) (cf_rust_types c) (cf_subclasses c) (cf_extern_rust_funs c) (cf_concretes c) (cf_externs c) (cf_opaquelist c).
Definition set_exclude_impls v c := Config (cf_inclusions c) (cf_policy c) (cf_parse_only c) v (cf_pod_requests c) (cf_allowlist c) (cf_blocklist c) (cf_constructor_blocklist c) (cf_instantiable c) (cf_exclude_utilities c) (cf_mod_name c) (cf_rust_types c) (cf_subclasses c) (cf_extern_rust_funs c) (cf_concretes c) (cf_externs c) (cf_opaquelist c).
Definition set_pod_requests f c := Config (cf_inclusions c) (cf_policy c) (cf_parse_only c) (cf_exclude_impls c) (f (cf_pod_requests c)) (cf_allowlist c) (cf_blocklist c) (cf_constructor_blocklist c) (cf_instantiable c) (cf_exclude_utilities c) (cf_mod_name c) (cf_rust_types c) (cf_subclasses c) (cf_extern_rust_funs c) (cf_concretes c) (cf_externs c) (cf_opaquelist c).
Definition set_allowlist v c := Config (cf_inclusions c) (cf_policy c) (cf_parse_only c) (cf_exclude_impls c) (cf_pod_requests c) v (cf_blocklist c) (cf_constructor_blocklist c) (cf_instantiable c) (cf_exclude_utilities c) (cf_mod_name c) (cf_rust_types c) (cf_subclasses c) (cf_extern_rust_funs c) (cf_concretes c) (cf_externs c) (cf_opaquelist c).
Definition set_blocklist f c := Config (cf_inclusions c) (cf_policy c) (cf_parse_only c) (cf_exclude_impls c) (cf_pod_requests c) (cf_allowlist c) (f (cf_blocklist c)) (cf_constructor_blocklist c) (cf_instantiable c) (cf_exclude_utilities c) (cf_mod_name c) (cf_rust_types c) (cf_subclasses c) (cf_extern_rust_funs c) (cf_concretes c) (cf_externs c) (cf_opaquelist c).
Definition set_constructor_blocklist f c := Config (cf_inclusions c) (cf_policy c) (cf_parse_only c) (cf_exclude_impls c) (cf_pod_requests c) (cf_allowlist c) (cf_blocklist c) (f (cf_constructor_blocklist c)) (cf_instantiable c) (cf_exclude_utilities c) (cf_mod_name c) (cf_rust_types c) (cf_subclasses c) (cf_extern_rust_funs c) (cf_concretes c) (cf_externs c) (cf_opaquelist c).
Definition set_instantiable f c := Config (cf_inclusions c) (cf_policy c) (cf_parse_only c) (cf_exclude_impls c) (cf_pod_requests c) (cf_allowlist c) (cf_blocklist c) (cf_constructor_blocklist c) (f (cf_instantiable c)) (cf_exclude_utilities c) (cf_mod_name c) (cf_rust_types c) (cf_subclasses c) (cf_extern_rust_funs c) (cf_concretes c) (cf_externs c) (cf_opaquelist c).
Definition set_exclude_utilities v c := Config (cf_inclusions c) (cf_policy c) (cf_parse_only c) (cf_exclude_impls c) (cf_pod_requests c) (cf_allowlist c) (cf_blocklist c) (cf_constructor_blocklist c) (cf_instantiable c) v (cf_mod_name c) (cf_rust_types c) (cf_subclasses c) (cf_extern_rust_funs c) (cf_concretes c) (cf_externs c) (cf_opaquelist c).
Definition set_mod_name v c := Config (cf_inclusions c) (cf_policy c) (cf_parse_only c) (cf_exclude_impls c) (cf_pod_requests c) (cf_allowlist c) (cf_blocklist c) (cf_constructor_blocklist c) (cf_instantiable c) (cf_exclude_utilities c) v (cf_rust_types c) (cf_subclasses c) (cf_extern_rust_funs c) (cf_concretes c) (cf_externs c) (cf_opaquelist c).
Definition set_rust_types f c := Config (cf_inclusions c) (cf_policy c) (cf_parse_only c) (cf_exclude_impls c) (cf_pod_requests c) (cf_allowlist c) (cf_blocklist c) (cf_constructor_blocklist c) (cf_instantiable c) (cf_exclude_utilities c) (cf_mod_name c) (f (cf_rust_types c)) (cf_subclasses c) (cf_extern_rust_funs c) (cf_concretes c) (cf_externs c) (cf_opaquelist c).
Definition set_subclasses f c := Config (cf_inclusions c) (cf_policy c) (cf_parse_only c) (cf_exclude_impls c) (cf_pod_requests c) (cf_allowlist c) (cf_blocklist c) (cf_constructor_blocklist c) (cf_instantiable c) (cf_exclude_utilities c) (cf_mod_name c) (cf_rust_types c) (f (cf_subclasses c)) (cf_extern_rust_funs c) (cf_concretes c) (cf_externs c) (cf_opaquelist c).
Definition set_extern_rust_funs f c := Config (cf_inclusions c) (cf_policy c) (cf_parse_only c) (cf_exclude_impls c) (cf_pod_requests c) (cf_allowlist c) (cf_blocklist c) (cf_constructor_blocklist c) (cf_instantiable c) (cf_exclude_utilities c) (cf_mod_name c) (cf_rust_types c) (cf_subclasses c) (f (cf_extern_rust_funs c)) (cf_concretes c) (cf_externs c) (cf_opaquelist c).
Definition set_concretes f c := Config (cf_inclusions c) (cf_policy c) (cf_parse_only c) (cf_exclude_impls c) (cf_pod_requests c) (cf_allowlist c) (cf_blocklist c) (cf_constructor_blocklist c) (cf_instantiable c) (cf_exclude_utilities c) (cf_mod_name c) (cf_rust_types c) (cf_subclasses c) (cf_extern_rust_funs c) (f (cf_concretes c)) (cf_externs c) (cf_opaquelist c).
Definition set_externs f c := Config (cf_inclusions c) (cf_policy c) (cf_parse_only c) (cf_exclude_impls c) (cf_pod_requests c) (cf_allowlist c) (cf_blocklist c) (cf_constructor_blocklist c) (cf_instantiable c) (cf_exclude_utilities c) (cf_mod_name c) (cf_rust_types c) (cf_subclasses c) (cf_extern_rust_funs c) (cf_concretes c) (f (cf_externs c)) (cf_opaquelist c).
Definition set_opaquelist f c := Config (cf_inclusions c) (cf_policy c) (cf_parse_only c) (cf_exclude_impls c) (cf_pod_requests c) (cf_allowlist c) (cf_blocklist c) (cf_constructor_blocklist c) (cf_instantiable c) (cf_exclude_utilities c) (cf_mod_name c) (cf_rust_types c) (cf_subclasses c) (cf_extern_rust_funs c) (cf_concretes c) (cf_externs c) (f (cf_opaquelist c)).

(** What can go wrong: a [syn::Error], or a Rust panic. The error values name
    the [Err]s of parser/src/config.rs:234-270 [parse]. *)
Inductive cerror :=
| EExpectedDirective | EUnexpectedInput | ESyntax | ESafety | EConflict.
Inductive cres (A : Type) := ROk (a : A) | RErr (e : cerror) | RPanic.
Arguments ROk {A} a. Arguments RErr {A} e. Arguments RPanic {A}.

(** [Vec::push]. *)
Definition vpush {A} (x : A) (l : list A) : list A := l ++ [x].

(** [IndexMap::insert]: an existing key keeps its place and gets the new
    value, a new key goes to the end. *)
Fixpoint minsert {V} (k : string) (v : V) (m : list (string * V)) : list (string * V) :=
  match m with
  | [] => [(k, v)]
  | (k', v') :: m' => if String.eqb k' k then (k', v) :: m' else (k', v') :: minsert k v m'
  end.

(** parser/src/config.rs:125-140 [push]. The lists of an [Unspecified]
    allowlist come first. *)
Definition allow_push (e : allow_entry) (a : allowlist) : cres allowlist :=
  match a with
  | AUnspecified l => ROk (ASpecific (l ++ [e]))
  | AAll => RErr EConflict
  | ASpecific l => ROk (ASpecific (vpush e l))
  end.

(** parser/src/config.rs:142-148 [set_all] *)
Definition allow_set_all (a : allowlist) : cres allowlist :=
  match a with
  | ASpecific _ => RErr EConflict
  | _ => ROk AAll
  end.

(** ** Directives *)

(** The fields a [StringList] or [BoolFlag] directive refers to
    (parser/src/directives.rs:303-306 [StringList], parser/src/directives.rs:337-340 [BoolFlag]). *)
Inductive list_field := FPod | FBlock | FOpaque | FBlockConstructors | FInstantiable.
Inductive flag_field := FParseOnly | FExcludeImpls | FExcludeUtilities.

Inductive directive :=
| DInclusion
| DGenerate (pod : bool)
| DGenerateNs
| DGenerateAll
| DSafety
| DStringList (f : list_field)
| DBoolFlag (f : flag_field)
| DModName
| DConcrete
| DRustType (printed : bool)
| DSubclass
| DExternRustFun
| DExternCppType (opaque : bool).

(** parser/src/directives.rs:37-123 [get_directives] *)
Definition need_hexathorpe : list (string * directive) := [("include", DInclusion)].
Definition need_exclamation : list (string * directive) :=
  [("generate", DGenerate false);
   ("generate_pod", DGenerate true);
   ("generate_ns", DGenerateNs);
   ("generate_all", DGenerateAll);
   ("safety", DSafety);
   ("pod", DStringList FPod);
   ("block", DStringList FBlock);
   ("opaque", DStringList FOpaque);
   ("block_constructors", DStringList FBlockConstructors);
   ("instantiable", DStringList FInstantiable);
   ("parse_only", DBoolFlag FParseOnly);
   ("exclude_impls", DBoolFlag FExcludeImpls);
   ("exclude_utilities", DBoolFlag FExcludeUtilities);
   ("name", DModName);
   ("concrete", DConcrete);
   ("rust_type", DRustType false);
   ("extern_rust_type", DRustType true);
   ("subclass", DSubclass);
   ("extern_rust_function", DExternRustFun);
   ("extern_cpp_type", DExternCppType false);
   ("extern_cpp_opaque_type", DExternCppType true)].

Fixpoint dget (n : string) (l : list (string * directive)) : option directive :=
  match l with
  | [] => None
  | (k, d) :: l' => if String.eqb k n then Some d else dget n l'
  end.

(** The accessors passed to [StringList] and [BoolFlag] in
    parser/src/directives.rs:37-123 [get_directives]. *)
Definition set_list (f : list_field) : (list string -> list string) -> config -> config :=
  match f with
  | FPod => set_pod_requests
  | FBlock => set_blocklist
  | FOpaque => set_opaquelist
  | FBlockConstructors => set_constructor_blocklist
  | FInstantiable => set_instantiable
  end.
Definition get_list (f : list_field) : config -> list string :=
  match f with
  | FPod => cf_pod_requests
  | FBlock => cf_blocklist
  | FOpaque => cf_opaquelist
  | FBlockConstructors => cf_constructor_blocklist
  | FInstantiable => cf_instantiable
  end.
Definition set_flag (f : flag_field) : bool -> config -> config :=
  match f with
  | FParseOnly => set_parse_only
  | FExcludeImpls => set_exclude_impls
  | FExcludeUtilities => set_exclude_utilities
  end.
Definition get_flag (f : flag_field) : config -> bool :=
  match f with
  | FParseOnly => cf_parse_only
  | FExcludeImpls => cf_exclude_impls
  | FExcludeUtilities => cf_exclude_utilities
  end.

(** parser/src/config.rs:46-72 [parse] (of [UnsafePolicy]). Returns the
    policy and what is left of the input. *)
Definition parse_policy (ts : list tok) : cres (unsafe_policy * list tok) :=
  match ts with
  | TUnsafe :: rest => ROk (AllFunctionsSafe, rest)
  | TIdent id :: rest =>
      if negb (match rest with [] => true | _ => false end) then RErr EUnexpectedInput
      else if String.eqb id "unsafe_ffi" then ROk (AllFunctionsSafe, rest)
      else if String.eqb id "unsafe_references_wrapped" then ROk (ReferencesWrappedAllFunctionsSafe, rest)
      else RErr ESafety
  | [] => ROk (AllFunctionsUnsafe, [])
  | _ => RErr EUnexpectedInput
  end.

(** parser/src/path.rs:58-66 [parse] (of [RustPath]): the part after the first
    identifier. *)
Fixpoint parse_path_rest (p : rust_path) (ts : list tok) : cres (rust_path * list tok) :=
  match ts with
  | TSep :: TIdent id :: ts' => parse_path_rest (p ++ [id]) ts'
  | TSep :: _ => RErr ESyntax
  | _ => ROk (p, ts)
  end.
Definition parse_path (ts : list tok) : cres (rust_path * list tok) :=
  match ts with
  | TIdent id :: ts' => parse_path_rest [id] ts'
  | _ => RErr ESyntax
  end.

(** The [parse] method of each directive: parser/src/directives.rs:144-153 [parse],
    parser/src/directives.rs:168-183 [parse], parser/src/directives.rs:209-221 [parse],
    parser/src/directives.rs:247-258 [parse], parser/src/directives.rs:276-284 [parse],
    parser/src/directives.rs:313-322 [parse], parser/src/directives.rs:347-355 [parse],
    parser/src/directives.rs:373-382 [parse], parser/src/directives.rs:399-410 [parse],
    parser/src/directives.rs:431-440 [parse], parser/src/directives.rs:458-472 [parse],
    parser/src/directives.rs:492-507 [parse], parser/src/directives.rs:527-544 [parse]. *)
Definition parse_directive (d : directive) (ts : list tok) (c : config) : cres (config * list tok) :=
  match d with
  | DInclusion =>
      match ts with TStr s :: r => ROk (set_inclusions (vpush s) c, r) | _ => RErr ESyntax end
  | DGenerate pod =>
      match ts with
      | TStr s :: r =>
          match allow_push (AItem s) (cf_allowlist c) with
          | ROk a =>
              let c := set_allowlist a c in
              ROk (if pod then set_pod_requests (vpush s) c else c, r)
          | RErr e => RErr e
          | RPanic => RPanic
          end
      | _ => RErr ESyntax
      end
  | DGenerateNs =>
      match ts with
      | TStr s :: r =>
          match allow_push (ANamespace s) (cf_allowlist c) with
          | ROk a => ROk (set_allowlist a c, r)
          | RErr e => RErr e
          | RPanic => RPanic
          end
      | _ => RErr ESyntax
      end
  | DGenerateAll =>
      match allow_set_all (cf_allowlist c) with
      | ROk a => ROk (set_allowlist a c, ts)
      | RErr e => RErr e
      | RPanic => RPanic
      end
  | DSafety =>
      match parse_policy ts with
      | ROk (p, r) => ROk (set_policy p c, r)
      | RErr e => RErr e
      | RPanic => RPanic
      end
  | DStringList f =>
      match ts with TStr s :: r => ROk (set_list f (vpush s) c, r) | _ => RErr ESyntax end
  | DBoolFlag f => ROk (set_flag f true c, ts)
  | DModName =>
      match ts with TIdent s :: r => ROk (set_mod_name (Some s) c, r) | _ => RErr ESyntax end
  | DConcrete =>
      match ts with
      | TStr s :: TComma :: TIdent id :: r => ROk (set_concretes (minsert s id) c, r)
      | _ => RErr ESyntax
      end
  | DRustType _ =>
      match ts with TIdent s :: r => ROk (set_rust_types (vpush [s]) c, r) | _ => RErr ESyntax end
  | DSubclass =>
      match ts with
      | TStr s :: TComma :: TIdent id :: r => ROk (set_subclasses (vpush (SubC s id)) c, r)
      | _ => RErr ESyntax
      end
  | DExternRustFun =>
      match parse_path ts with
      | ROk (p, TComma :: TSig sig :: r) => ROk (set_extern_rust_funs (vpush (RustFun p sig false)) c, r)
      | ROk _ => RErr ESyntax
      | RErr e => RErr e
      | RPanic => RPanic
      end
  | DExternCppType opaque =>
      match ts with
      | TStr s :: TComma :: TType p :: r => ROk (set_externs (minsert s (ExtTy p opaque)) c, r)
      | _ => RErr ESyntax
      end
  end.

(** parser/src/config.rs:234-270 [parse] (of [IncludeCppConfig]), from a
    configuration built so far. The directives after a [#] read from the input
    itself; of those there is only [include], which takes one token or fails. *)
Fixpoint parse_config (c : config) (ts : list tok) : cres config :=
  match ts with
  | [] => ROk c
  | TPound :: TIdent id :: ts' =>
      match dget id need_hexathorpe with
      | None => RErr EExpectedDirective
      | Some d =>
          match ts' with
          | t :: ts'' =>
              match parse_directive d [t] c with
              | ROk (c', []) => parse_config c' ts''
              | ROk _ => RErr ESyntax
              | RErr e => RErr e
              | RPanic => RPanic
              end
          | [] => RErr ESyntax
          end
      end
  | TIdent id :: TBang :: TGroup args :: ts' | TIdent id :: TGroup args :: ts' =>
      match dget id need_exclamation with
      | None => RErr EExpectedDirective
      | Some d =>
          match parse_directive d args c with
          | ROk (c', []) => parse_config c' ts'
          | ROk _ => RErr EUnexpectedInput
          | RErr e => RErr e
          | RPanic => RPanic
          end
      end
  | _ => RErr ESyntax
  end.

(** ** Printing *)

(** parser/src/config.rs:76-82 [to_tokens] (of [UnsafePolicy]) *)
Definition policy_tokens (p : unsafe_policy) : list tok :=
  match p with
  | AllFunctionsSafe => [TUnsafe]
  | ReferencesWrappedAllFunctionsSafe => [TIdent "unsafe_references_wrapped"]
  | AllFunctionsUnsafe => []
  end.

(** parser/src/path.rs:43-54 [to_tokens] (of [RustPath]) *)
Fixpoint path_tokens (p : rust_path) : list tok :=
  match p with
  | [] => []
  | [id] => [TIdent id]
  | id :: p' => TIdent id :: TSep :: path_tokens p'
  end.

Definition items (l : list allow_entry) : list string :=
  flat_map (fun e => match e with AItem s => [s] | ANamespace _ => [] end) l.
Definition namespaces (l : list allow_entry) : list string :=
  flat_map (fun e => match e with ANamespace s => [s] | AItem _ => [] end) l.

(** The [output] method of each directive: parser/src/directives.rs:156-161 [output],
    parser/src/directives.rs:186-203 [output], parser/src/directives.rs:224-241 [output],
    parser/src/directives.rs:261-270 [output], parser/src/directives.rs:287-296 [output],
    parser/src/directives.rs:325-334 [output], parser/src/directives.rs:358-367 [output],
    parser/src/directives.rs:385-393 [output], parser/src/directives.rs:413-422 [output],
    parser/src/directives.rs:443-452 [output], parser/src/directives.rs:475-486 [output],
    parser/src/directives.rs:510-519 [output], parser/src/directives.rs:547-568 [output]. *)
Definition output (d : directive) (c : config) : cres (list (list tok)) :=
  match d with
  | DInclusion => ROk (map (fun s => [TStr s]) (cf_inclusions c))
  | DGenerate pod =>
      match cf_allowlist c with
      | ASpecific l => ROk (if pod then [] else map (fun s => [TStr s]) (items l))
      | AUnspecified _ => RPanic
      | AAll => ROk []
      end
  | DGenerateNs =>
      match cf_allowlist c with
      | ASpecific l => ROk (map (fun s => [TStr s]) (namespaces l))
      | AUnspecified _ => RPanic
      | AAll => ROk []
      end
  | DGenerateAll =>
      match cf_allowlist c with
      | AAll => ROk [[]]
      | AUnspecified _ => RPanic
      | ASpecific _ => ROk []
      end
  | DSafety =>
      match cf_policy c with
      | AllFunctionsUnsafe => ROk []
      | p => ROk [policy_tokens p]
      end
  | DStringList f => ROk (map (fun s => [TStr s]) (get_list f c))
  | DBoolFlag f => ROk (if get_flag f c then [[]] else [])
  | DModName => ROk (match cf_mod_name c with None => [] | Some id => [[TIdent id]] end)
  | DConcrete => ROk (map (fun kv => [TStr (fst kv); TComma; TIdent (snd kv)]) (cf_concretes c))
  | DRustType out => ROk (if out then map path_tokens (cf_rust_types c) else [])
  | DSubclass => ROk (map (fun s => [TStr (sc_superclass s); TComma; TIdent (sc_subclass s)]) (cf_subclasses c))
  | DExternRustFun =>
      ROk (map (fun f => (path_tokens (rf_path f) ++ [TComma; TSig (rf_sig f)])%list) (cf_extern_rust_funs c))
  | DExternCppType opaque =>
      ROk (flat_map (fun kv => if Bool.eqb (et_opaque (snd kv)) opaque
                               then [[TStr (fst kv); TComma; TType (et_rust_path (snd kv))]] else [])
                    (cf_externs c))
  end.

(** parser/src/config.rs:480-499 [to_tokens]: the directives of one table. *)
Fixpoint print_table (wrap : string -> list tok -> list tok) (l : list (string * directive)) (c : config)
  : cres (list tok) :=
  match l with
  | [] => ROk []
  | (id, d) :: l' =>
      match output d c with
      | ROk os =>
          match print_table wrap l' c with
          | ROk ts => ROk (flat_map (wrap id) os ++ ts)%list
          | e => e
          end
      | RErr e => RErr e
      | RPanic => RPanic
      end
  end.

Definition wrap_hexathorpe (id : string) (o : list tok) : list tok := TPound :: TIdent id :: o.
Definition wrap_exclamation (id : string) (o : list tok) : list tok := [TIdent id; TBang; TGroup o].

(** parser/src/config.rs:480-499 [to_tokens] *)
Definition to_tokens (c : config) : cres (list tok) :=
  match print_table wrap_hexathorpe need_hexathorpe c with
  | ROk a =>
      match print_table wrap_exclamation need_exclamation c with
      | ROk b => ROk (a ++ b)%list
      | e => e
      end
  | e => e
  end.

(** ** Decisions *)

(** parser/src/config.rs:464-468 [confirm_complete] *)
Definition confirm_complete (c : config) : config :=
  match cf_allowlist c with
  | AUnspecified _ => set_allowlist (ASpecific []) c
  | _ => c
  end.

(** parser/src/config.rs:293-308 [must_generate_list] *)
Definition must_generate_list (c : config) : list string :=
  match cf_allowlist c with
  | ASpecific l => items l ++ cf_pod_requests c
  | _ => cf_pod_requests c
  end.

Section WithHash.
(** The hash of a configuration in hexadecimal, as [{:#x}] prints it
    (parser/src/config.rs:400-404 [get_hash]). *)
Variable hash : config -> string.

(** parser/src/config.rs:409-411 [uniquify_name_per_mod],
    parser/src/config.rs:413-415 [get_makestring_name] *)
Definition get_makestring_name (c : config) : string := "autocxx_make_string" +++ "_" +++ hash c.

(** parser/src/config.rs:332-338 [active_utilities] *)
Definition active_utilities (c : config) : list string :=
  if cf_exclude_utilities c then [] else [get_makestring_name c].

(** parser/src/config.rs:101-106 [to_bindgen_item] *)
Definition to_bindgen_item (e : allow_entry) : string :=
  match e with AItem i => i | ANamespace ns => ns +++ "::.*" end.

(** parser/src/config.rs:311-330 [bindgen_allowlist] *)
Definition bindgen_allowlist (c : config) : cres (option (list string)) :=
  match cf_allowlist c with
  | AAll => ROk None
  | ASpecific l =>
      ROk (Some (map to_bindgen_item l ++ cf_pod_requests c ++ active_utilities c
                 ++ flat_map (fun s => [sc_subclass s +++ "Cpp"; sc_subclass s; sc_superclass s]) (cf_subclasses c)))%list
  | AUnspecified _ => RPanic
  end.

(** parser/src/config.rs:340-350 [is_subclass_or_superclass] *)
Definition is_subclass_or_superclass (c : config) (n : string) : bool :=
  existsb (String.eqb n) (flat_map (fun s => [sc_subclass s; sc_superclass s]) (cf_subclasses c)).

(** parser/src/config.rs:441-445 [is_subclass_holder] *)
Definition is_subclass_holder (c : config) (n : string) : bool :=
  existsb (fun s => String.eqb (sc_subclass s +++ "Holder") n) (cf_subclasses c).

(** parser/src/config.rs:447-451 [is_subclass_cpp] *)
Definition is_subclass_cpp (c : config) (n : string) : bool :=
  existsb (fun s => String.eqb (sc_subclass s +++ "Cpp") n) (cf_subclasses c).

(** parser/src/config.rs:428-433 [is_rust_fun] *)
Definition is_rust_fun (c : config) (n : string) : bool :=
  existsb (fun f => String.eqb (sig_ident (rf_sig f)) n) (cf_extern_rust_funs c).

(** parser/src/config.rs:422-426 [is_rust_type_name]. Simplified: the empty
    path, which parser/src/path.rs:29-31 [get_final_ident] would panic on, and
    which no constructor of paths makes, has no final identifier. *)
Definition is_rust_type_name (c : config) (n : string) : bool :=
  existsb (fun p => match rev p with id :: _ => String.eqb id n | [] => false end) (cf_rust_types c).

(** parser/src/config.rs:417-420 [is_rust_type] *)
Definition is_rust_type (c : config) (n : string) : bool :=
  is_rust_type_name c n || is_subclass_holder c n.

(** parser/src/config.rs:395-397 [is_concrete_type] *)
Definition is_concrete_type (c : config) (n : string) : bool :=
  existsb (fun kv => String.eqb (snd kv) n) (cf_concretes c).

(** parser/src/config.rs:361-377 [is_on_allowlist] *)
Definition is_on_allowlist (c : config) (n : string) : cres bool :=
  if existsb (fun i => String.eqb i n) (active_utilities c)
     || is_subclass_or_superclass c n
     || is_subclass_holder c n
     || is_subclass_cpp c n
     || is_rust_fun c n
     || is_rust_type_name c n
     || is_concrete_type c n
  then ROk true
  else match cf_allowlist c with
       | AUnspecified _ => RPanic
       | AAll => ROk true
       | ASpecific l =>
           ROk (existsb (fun e => match e with
                                  | AItem i => String.eqb i n
                                  | ANamespace ns => starts_with ns n
                                  end) l)
       end.

End WithHash.

(** parser/src/config.rs:379-381 [is_on_blocklist] *)
Definition is_on_blocklist (c : config) (n : string) : bool := smem n (cf_blocklist c).

(** parser/src/config.rs:383-385 [is_on_constructor_blocklist] *)
Definition is_on_constructor_blocklist (c : config) (n : string) : bool := smem n (cf_constructor_blocklist c).

(** parser/src/config.rs:278-283 [get_mod_name] *)
Definition get_mod_name (c : config) : string :=
  match cf_mod_name c with Some m => m | None => "ffi" end.

(** parser/src/config.rs:454-462 [get_rs_filename] *)
Definition get_rs_filename (c : config) : string :=
  "autocxx-" +++ (match cf_mod_name c with Some m => m | None => "ffi-default" end) +++ "-gen.rs".

(** parser/src/config.rs:435-439 [superclasses], duplicates removed; the
    order of the Rust set is not part of the model. *)
Definition superclasses (c : config) : list string := nodup string_dec (map sc_superclass (cf_subclasses c)).

(** parser/src/config.rs:472-475 [replace_included_headers] *)
Definition replace_included_headers (r : string) (c : config) : config := set_inclusions (fun _ => [r]) c.
