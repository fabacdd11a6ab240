(** engine/src/conversion/analysis/type_converter.rs:541-585: names for template instantiations. *)
From Verif Require Import Base QNamesModel ApiModel TypesModel CppTypesModel.

(** [concrete_templates]: C++ spelling to Rust name. engine/src/conversion/analysis/type_converter.rs:669-680
    [find_concrete_templates] collects the pairs of all ConcreteType APIs. *)
Definition concretes := list (string * qname).
Definition find_concrete_templates (l : list (string * qname)) : concretes :=
  fold_left (fun m p => sset (fst p) (snd p) m) l [].

(** [char::is_ascii_alphanumeric]. *)
Definition is_alnum (c : ascii) : bool :=
  let n := nat_of_ascii c in
  ((48 <=? n) && (n <=? 57)) || ((65 <=? n) && (n <=? 90)) || ((97 <=? n) && (n <=? 122)).

(** engine/src/conversion/analysis/type_converter.rs:556: every character other than a letter, digit or underscore becomes one. *)
Fixpoint sanitise (s : string) : string :=
  match s with
  | EmptyString => ""
  | String c r => String (if is_alnum c || Ascii.eqb c "_" then c else "_"%char) (sanitise r)
  end.
(** [str::split('_')]; [acc] is the current piece. *)
Fixpoint split_us (acc s : string) : list string :=
  match s with
  | EmptyString => [acc]
  | String c r => if Ascii.eqb c "_" then acc :: split_us "" r else split_us (acc +++ String c "") r
  end.
(** engine/src/conversion/analysis/type_converter.rs:554-563. *)
Definition synthetic_ident (cpp_definition : string) : string :=
  join "_" (filter (fun s => negb (String.eqb s "")) (split_us "" (sanitise cpp_definition +++ "_AutocxxConcrete"))).

(** engine/src/conversion/analysis/type_converter.rs:541-585 [get_templated_typename], after the type has been spelled in C++. The
    boolean says whether a new ConcreteType API was made. Simplification: [make_ident] is taken to
    accept the name. *)
Definition get_templated_typename (cs : concretes) (cpp_definition : string) : concretes * qname * bool :=
  match sget cpp_definition cs with
  | Some tn => (cs, tn, false)
  | None =>
      let s := synthetic_ident cpp_definition in
      let id := if existsb (fun p => String.eqb (qn_item (snd p)) s) cs
                then "AutocxxConcrete" +++ dec (length cs) else s in
      (sset cpp_definition (QN [] id) cs, QN [] id, true)
  end.
(** The same starting from a Rust type: engine/src/conversion/analysis/type_converter.rs:549. *)
Definition templated_typename_of (m : name_map) (cs : concretes) (t : ty) : conv (concretes * qname * bool) :=
  cbind (type_to_cpp m t) (fun d => COk (get_templated_typename cs d)).

(** A sequence of requests. *)
Fixpoint concrete_run (cs : concretes) (defs : list string) : concretes * list qname :=
  match defs with
  | [] => (cs, [])
  | d :: r => let '(cs1, n, _) := get_templated_typename cs d in
              let '(cs2, ns) := concrete_run cs1 r in (cs2, n :: ns)
  end.
