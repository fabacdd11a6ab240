(** Model of the recording of the headers a build depends on: gen/build/src/lib.rs, the recorders of engine/src/parse_file.rs and gen/cmd/src/main.rs. *)
From Verif Require Import Base ConfigModel DiscoverModel EngineModel ParseFileModel OutputModel.
Local Open Scope list_scope.

(** gen/build/src/lib.rs:34-36 [CargoRebuildDependencyRecorder], with the lines it has printed. *)
Record cargo_recorder := CargoRecorder { cr_already : list string; cr_printed : list string }.
(** gen/build/src/lib.rs:39-43 [new] *)
Definition cargo_new : cargo_recorder := CargoRecorder [] [].
(** gen/build/src/lib.rs:47-52 [record_header_file_dependency] *)
Definition cargo_record (s : cargo_recorder) (f : string) : cargo_recorder :=
  if smem f (cr_already s) then s
  else CargoRecorder (cr_already s ++ [f]) (cr_printed s ++ ["cargo:rerun-if-changed=" +++ f]).

Section Recording.
Variable hash : config -> string.
Variable nightly : bool.
Variable prelude : string.
Variable convert : request -> config -> outcome conversion.
(** The files bindgen reads for a request, in order. *)
Variable reads : request -> config -> list string.
Variables incs extra : list string.

(** gen/cmd/src/main.rs:457-460 [record_header_file_dependency]; [None] is a panic. *)
Variable relativize : string -> option string.
Definition depfile_record (s : option depfile) (f : string) : option depfile :=
  match s with Some d => add_dependency relativize f d | None => None end.

(** The calls of engine/src/parse_callbacks.rs:270-274 [include_file] while one block is generated (engine/src/lib.rs:452-540 [generate]): there are
    some only if it gets as far as bindgen. *)
Definition read_by (e : engine) : list string :=
  match en_state e with
  | NotGenerated =>
      match cf_policy (en_config e), nightly with
      | ReferencesWrappedAllFunctionsSafe, false => []
      | _, _ => match make_request hash prelude incs extra (en_config e) with Done r => reads r (en_config e) | _ => [] end
      end
  | _ => []
  end.

(** engine/src/parse_file.rs:371-403 [resolve_all] and engine/src/parse_file.rs:420-422 [record_header_file_dependency]: all blocks share one recorder, whose state is [s]. *)
Section Shared.
Variable S : Type.
Variable record : S -> string -> S.
Fixpoint record_all (l : list engine) (found : list string) (s : S) : S :=
  match l with
  | [] => s
  | e :: l' =>
      let m := get_mod_name (en_config e) in
      if smem m found then s
      else
        let s' := fold_left record (read_by e) s in
        match snd (generate hash nightly prelude convert incs extra e) with
        | Done _ => record_all l' (m :: found) s'
        | _ => s'
        end
  end.
End Shared.
End Recording.
