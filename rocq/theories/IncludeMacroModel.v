(** src/lib.rs:105-441: the macros of the library, of which [include_cpp] hands its directives to the procedural macro. *)
From Verif Require Import Base ConfigModel.

(** The macros defined in src/lib.rs:105-441, by name; all but the first take [__docs] and expand to nothing. *)
Definition crate_macros : list string :=
  ["include_cpp"; "include"; "generate"; "generate_pod"; "generate_ns"; "generate_all"; "pod"; "exclude_utilities"; "block"; "opaque"; "block_constructors"; "name"; "concrete"; "safety";
   "exclude_impls"; "extern_cpp_type"; "extern_cpp_opaque_type"; "rust_type"; "extern_rust_type"; "subclass"; "instantiable"; "usage"].
(** Whether [$crate::m!{__docs}] is accepted. [include_cpp] does not match it. *)
Definition documented (m : string) : bool := smem m crate_macros && negb (String.eqb m "include_cpp").

(** src/lib.rs:105-118 [include_cpp]: the repetition of directives. Simplified: [TGroup] stands for parentheses. *)
Fixpoint forward_directives (ts : list tok) : option (list tok) :=
  match ts with
  | [] => Some []
  | TIdent m :: TBang :: TGroup args :: r =>
      if documented m then match forward_directives r with Some o => Some (TIdent m :: TBang :: TGroup args :: o) | None => None end else None
  | _ => None
  end.
(** src/lib.rs:105-118 [include_cpp]: what is handed to the procedural macro; [None] is an error of the compiler. Simplified: literals other than strings, which
    the procedural macro refuses, are no tokens of the model. *)
Fixpoint include_cpp (ts : list tok) : option (list tok) :=
  match ts with
  | TPound :: TIdent i :: TStr s :: r =>
      if documented i then match include_cpp r with Some o => Some (TPound :: TIdent "include" :: TStr s :: o) | None => None end else None
  | _ => forward_directives ts
  end.
