(** engine/src/lib.rs:551-641: the headers of a block preprocessed into one file, for reports of problems. *)
From Verif Require Import Base ConfigModel EngineModel ReduceModel.

(** engine/src/lib.rs:614-641 [ALL_KNOWN_SYSTEM_HEADERS]. *)
Definition all_known_system_headers : list string :=
  ["memory"; "string"; "algorithm"; "array"; "cassert"; "cstddef"; "cstdint"; "cstring"; "exception"; "functional"; "initializer_list"; "iterator"; "memory"; "new";
   "stdexcept"; "type_traits"; "utility"; "vector"; "sys/types.h"].

(** engine/src/lib.rs:587-611, inside make_preprocessed_file: the text given to the preprocessor. [debug] is what Rust's derived [Debug] prints for the
    configuration; [cxx_h] is cxx's header. *)
Definition dump_input (cxx_h debug header : string) : string :=
  "/*" +++ nl +++ "autocxx config:" +++ nl +++ nl +++ debug +++ nl +++ nl +++ "end autocxx config." +++ nl +++ "autocxx preprocessed input:" +++ nl +++ "*/" +++ nl +++ nl +++
  header +++ nl +++ nl +++ "/* autocxx: extra headers added below for completeness. */" +++ nl +++ nl +++
  join nl (map (fun h => "#include <" +++ h +++ ">" +++ nl) all_known_system_headers) +++ nl +++ cxx_h +++ nl.

Section Dump.
(** What clang prints for a text and arguments, if it succeeds, where the text is in the file [tmp]. *)
Variable clang : string -> list string -> option string.
Variable tmp : string.
Variables cxx_h debug : string.
(** engine/src/lib.rs:587-611 [make_preprocessed_file]: what is written to the output; [None] is a panic. *)
Definition make_preprocessed_file (header : string) (incs extra : list string) : option string :=
  clang (dump_input cxx_h debug header) (preprocess_args tmp incs extra).

(** engine/src/lib.rs:551-585 [dump_header_if_so_configured]: the files written, for the values of AUTOCXX_PREPROCESS and AUTOCXX_REPRO_CASE. The second is
    as a case; that its JSON is read back is trusted. *)
Definition dump_header (preprocess_to repro_to : option string) (c : config) (header : string) (incs extra : list string)
  : option (list (string * string) * list (string * repro_case)) :=
  match (match preprocess_to with Some p => option_map (fun t => [(p, t)]) (make_preprocessed_file header incs extra) | None => Some [] end) with
  | None => None
  | Some a =>
      match repro_to with
      | None => Some (a, [])
      | Some p =>
          match make_preprocessed_file header incs extra with
          | Some t => match repro_of c t with Done r => Some (a, [(p, r)]) | _ => None end
          | None => None
          end
      end
  end.
End Dump.
