(** engine/src/conversion/analysis/fun/implicit_constructors.rs: which special members C++ gives a class. *)
From Verif Require Import Base QNamesModel KnownTypesModel ApiModel TypesModel ConcreteNamesModel TypeConverterModel ByValueModel.

Inductive cpp_vis := VPublic | VProtected | VPrivate.

(** engine/src/conversion/analysis/fun/implicit_constructors.rs:36-48 [SpecialMemberFound]. *)
Inductive smf := NotPresent | Implicit | Explicit (v : cpp_vis).
(** engine/src/conversion/analysis/fun/implicit_constructors.rs:52-54 [callable_any]. *)
Definition callable_any (s : smf) : bool := match s with Explicit VPublic | Implicit => true | _ => false end.
(** engine/src/conversion/analysis/fun/implicit_constructors.rs:57-64 [callable_subclass]. *)
Definition callable_subclass (s : smf) : bool :=
  match s with Explicit VPublic | Explicit VProtected | Implicit => true | _ => false end.
(** engine/src/conversion/analysis/fun/implicit_constructors.rs:69-71 [exists]. *)
Definition sm_exists (s : smf) : bool := match s with Explicit _ | Implicit => true | _ => false end.
(** engine/src/conversion/analysis/fun/implicit_constructors.rs:73-75 [exists_implicit]. *)
Definition exists_implicit (s : smf) : bool := match s with Implicit => true | _ => false end.
(** engine/src/conversion/analysis/fun/implicit_constructors.rs:77-79 [exists_explicit]. *)
Definition exists_explicit (s : smf) : bool := match s with Explicit _ => true | _ => false end.

(** engine/src/conversion/analysis/fun/implicit_constructors.rs:87-103 [ItemsFound], without the name. *)
Record items := Items { i_default : smf; i_dtor : smf; i_ccopy : smf; i_nccopy : smf; i_move : smf }.

(** engine/src/conversion/analysis/fun/implicit_constructors.rs:108-110 [implicit_default_constructor_needed]. *)
Definition implicit_default_needed (i : items) : bool := exists_implicit (i_default i).
(** engine/src/conversion/analysis/fun/implicit_constructors.rs:114-120 [implicit_copy_constructor_needed]. *)
Definition implicit_copy_needed (i : items) : bool :=
  (exists_implicit (i_ccopy i) || exists_implicit (i_nccopy i)) && negb (exists_explicit (i_ccopy i) || exists_explicit (i_nccopy i)).
(** engine/src/conversion/analysis/fun/implicit_constructors.rs:124-126 [implicit_move_constructor_needed]. *)
Definition implicit_move_needed (i : items) : bool := exists_implicit (i_move i).
(** engine/src/conversion/analysis/fun/implicit_constructors.rs:130-132 [implicit_destructor_needed]. *)
Definition implicit_dtor_needed (i : items) : bool := exists_implicit (i_dtor i).

(** engine/src/conversion/analysis/fun/implicit_constructors.rs:135-145 [ExplicitKind]. *)
Inductive ekind := EkDefault | EkConstCopy | EkNonConstCopy | EkMove | EkOther | EkDtor
                 | EkConstCopyAssign | EkNonConstCopyAssign | EkMoveAssign.
Definition ekind_eqb (a b : ekind) : bool :=
  match a, b with
  | EkDefault, EkDefault | EkConstCopy, EkConstCopy | EkNonConstCopy, EkNonConstCopy | EkMove, EkMove | EkOther, EkOther
  | EkDtor, EkDtor | EkConstCopyAssign, EkConstCopyAssign | EkNonConstCopyAssign, EkNonConstCopyAssign
  | EkMoveAssign, EkMoveAssign => true
  | _, _ => false
  end.
(** engine/src/conversion/analysis/fun/implicit_constructors.rs:157-166 [ExplicitFound]. *)
Inductive efound := UserDefined (v : cpp_vis) | Deleted | Multiple.

(** A function as [find_explicit_items] sees it: kind, whether bindgen calls it an assignment operator,
    whether it is fine or its only problem is being one, whether an input is an rvalue reference, the
    mutability of its receiver if it has one, whether it is deleted, its access. *)
Inductive sm_kind := SkConstructor (is_default : bool) | SkOtherMethod | SkTrait (t : trait_method_kind) | SkFunction.
Record sm_fn := SmFn { sf_for : qname; sf_kind : sm_kind; sf_assign : bool; sf_ok : bool; sf_rvalue : bool;
                       sf_receiver : option mutability; sf_deleted : bool; sf_vis : cpp_vis }.

Definition explicits := list ((qname * ekind) * efound).
Fixpoint eget (q : qname) (k : ekind) (m : explicits) : option efound :=
  match m with
  | [] => None
  | ((q', k'), e) :: r => if qn_eqb q q' && ekind_eqb k k' then Some e else eget q k r
  end.
Fixpoint eset (q : qname) (k : ekind) (e : efound) (m : explicits) : explicits :=
  match m with
  | [] => [((q, k), e)]
  | ((q', k'), e') :: r => if qn_eqb q q' && ekind_eqb k k' then ((q', k'), e) :: r else ((q', k'), e') :: eset q k e r
  end.
(** engine/src/conversion/analysis/fun/implicit_constructors.rs:579-592 [merge_fun]. *)
Definition merge_fun (q : qname) (k : ekind) (f : sm_fn) (m : explicits) : explicits :=
  match eget q k m with
  | None => eset q k (if sf_deleted f then Deleted else UserDefined (sf_vis f)) m
  | Some _ => eset q k Multiple m
  end.

(** engine/src/conversion/analysis/fun/implicit_constructors.rs:594-697: what one function counts as:
    [None] is the panic of [unwrap] on the receiver. *)
Inductive contribution := CoKind (k : ekind) | CoUnknown | CoNone.
Definition contributes (f : sm_fn) : option contribution :=
  match sf_kind f with
  | SkFunction => Some CoNone
  | SkConstructor _ | SkOtherMethod =>
      if sf_assign f then
        if sf_ok f then
          if negb (sf_rvalue f) then Some (CoKind EkMoveAssign)
          else match sf_receiver f with
               | None => None
               | Some MConst => Some (CoKind EkConstCopyAssign)
               | Some MMutable => Some (CoKind EkNonConstCopyAssign)
               end
        else Some CoUnknown
      else match sf_kind f with
           | SkConstructor true => Some (CoKind EkDefault)
           | SkConstructor false => Some (CoKind EkOther)
           | _ => Some CoNone
           end
  | SkTrait TDestructor => Some (CoKind EkDtor)
  | SkTrait TCopyConstructor => Some (CoKind EkConstCopy)
  | SkTrait TMoveConstructor => Some (CoKind EkMove)
  | SkTrait _ => Some CoNone
  end.
(** engine/src/conversion/analysis/fun/implicit_constructors.rs:575-700 [find_explicit_items]. *)
Fixpoint find_explicit_items (fns : list sm_fn) (m : explicits) (unknown : list qname) : option (explicits * list qname) :=
  match fns with
  | [] => Some (m, unknown)
  | f :: r =>
      match contributes f with
      | None => None
      | Some (CoKind k) => find_explicit_items r (merge_fun (sf_for f) k f m) unknown
      | Some CoUnknown => find_explicit_items r m (qinsert (sf_for f) unknown)
      | Some CoNone => find_explicit_items r m unknown
      end
  end.

(** engine/src/conversion/analysis/fun/implicit_constructors.rs:712-729 [known_type_items_found]; the pair
    is (move, const copy). *)
Definition known_type_items_found (d : bool * bool) : items :=
  let ex (b : bool) := if b then Explicit VPublic else NotPresent in
  Items (Explicit VPublic) (Explicit VPublic) (ex (snd d)) NotPresent (ex (fst d)).
(** engine/src/conversion/analysis/fun/implicit_constructors.rs:226-233 and 263-272: enums, and pointers
    and references. *)
Definition scalar_items : items := Items NotPresent Implicit Implicit NotPresent Implicit.

(** A struct as this analysis sees it (engine/src/conversion/analysis/fun/implicit_constructors.rs:203-220). *)
Record ic_struct := IcStruct { ic_name : qname; ic_kind : type_kind; ic_bases : list qname; ic_fields : list field_info;
                               ic_generics : nat; ic_anon : bool; ic_rvalue : bool }.
Definition ic_considered (s : ic_struct) : bool :=
  match ic_kind s with Opaque => false | _ => true end && Nat.eqb (ic_generics s) 0 && negb (ic_anon s).

Section Find.
Variables (ex : explicits) (unknown enums : list qname).

(** engine/src/conversion/analysis/fun/implicit_constructors.rs:224-241 [get_items_found]. *)
Definition get_items_found (all : list (qname * items)) (q : qname) : option items :=
  if qmem q enums then Some scalar_items
  else match constructor_details q with
       | Some d => Some (known_type_items_found d)
       | None => qget q all
       end.
(** [map_while(..).collect()] is as long as the list only if nothing is missing. *)
Fixpoint get_all (all : list (qname * items)) (l : list qname) : option (list items) :=
  match l with
  | [] => Some []
  | q :: r => match get_items_found all q, get_all all r with Some i, Some m => Some (i :: m) | _, _ => None end
  end.

(** engine/src/conversion/analysis/fun/implicit_constructors.rs:245-273, one field: [Some None] is a field
    of unknown type, [None] the panic of [from_type_path]. *)
Definition field_items (all : list (qname * items)) (f : field_info) : option (option items) :=
  let of_path l i := match path_name l i with None => None | Some q => Some (get_items_found all q) end in
  match fi_kind f with
  | TkRegular | TkSubclassHolder _ =>
      match fi_ty f with
      | TPath l i _ => of_path l i
      | TArray (TPath l i _) _ => of_path l i
      | _ => Some None
      end
  | _ => Some (Some scalar_items)
  end.
(** [None]: panic; [Some None]: some field is unknown. *)
Fixpoint fields_items (all : list (qname * items)) (fs : list field_info) : option (option (list items)) :=
  match fs with
  | [] => Some (Some [])
  | f :: r =>
      match field_items all f, fields_items all r with
      | Some (Some i), Some (Some m) => Some (Some (i :: m))
      | Some _, Some _ => Some None
      | _, _ => None
      end
  end.

(** engine/src/conversion/analysis/fun/implicit_constructors.rs:293-305 [is_explicit]. *)
Definition is_explicit (o : option efound) : smf :=
  match o with Some (UserDefined v) => Explicit v | _ => NotPresent end.
(** engine/src/conversion/analysis/fun/implicit_constructors.rs:307-333: types with unknown parts. *)
Definition explicits_only (n : qname) : items :=
  Items (is_explicit (eget n EkDefault ex))
        (match eget n EkDtor ex with
         | None => Implicit
         | Some Multiple => Explicit VPublic
         | Some Deleted => NotPresent
         | Some (UserDefined v) => Explicit v
         end)
        (is_explicit (eget n EkConstCopy ex)) (is_explicit (eget n EkNonConstCopy ex)) (is_explicit (eget n EkMove ex)).

Definition absent (n : qname) (k : ekind) : bool := match eget n k ex with None => true | Some _ => false end.

(** engine/src/conversion/analysis/fun/implicit_constructors.rs:355-398 [default_constructor]. *)
Definition default_constructor (s : ic_struct) (bases fields : list items) : smf :=
  let n := ic_name s in
  if absent n EkDefault && negb (existsb (fun e => qn_eqb (fst (fst e)) n &&
       match snd (fst e) with EkConstCopy | EkNonConstCopy | EkMove | EkOther => true | _ => false end) ex)
  then
    if negb (ic_rvalue s)
       && forallb (fun i => callable_subclass (i_dtor i) && callable_subclass (i_default i)) bases
       && forallb (fun i => callable_any (i_dtor i) && callable_any (i_default i)) fields
    then Implicit else NotPresent
  else is_explicit (eget n EkDefault ex).
(** engine/src/conversion/analysis/fun/implicit_constructors.rs:407-431 [destructor]. *)
Definition destructor (s : ic_struct) (bases fields : list items) : smf :=
  if absent (ic_name s) EkDtor
  then if forallb (fun i => callable_subclass (i_dtor i)) bases && forallb (fun i => callable_any (i_dtor i)) fields
       then Implicit else NotPresent
  else is_explicit (eget (ic_name s) EkDtor ex).
(** engine/src/conversion/analysis/fun/implicit_constructors.rs:446-504 [const_copy_constructor],
    [non_const_copy_constructor]. *)
Definition copy_constructors (s : ic_struct) (bases fields : list items) : smf * smf :=
  let n := ic_name s in
  if absent n EkConstCopy && absent n EkNonConstCopy then
    let class_allows := absent n EkMove && negb (ic_rvalue s) in
    let bases_allow := forallb (fun i => callable_subclass (i_dtor i) && (callable_subclass (i_ccopy i) || callable_subclass (i_nccopy i))) bases in
    let members_allow := forallb (fun i => callable_any (i_dtor i) && (callable_any (i_ccopy i) || callable_any (i_nccopy i))) fields in
    if class_allows && bases_allow && members_allow
    then if forallb (fun i => sm_exists (i_ccopy i)) (bases ++ fields) then (Implicit, NotPresent) else (NotPresent, Implicit)
    else (NotPresent, NotPresent)
  else (is_explicit (eget n EkConstCopy ex), is_explicit (eget n EkNonConstCopy ex)).
(** engine/src/conversion/analysis/fun/implicit_constructors.rs:520-552 [move_constructor]. *)
Definition move_constructor (s : ic_struct) (bases fields : list items) : smf :=
  let n := ic_name s in
  if forallb (absent n) [EkMove; EkConstCopy; EkNonConstCopy; EkConstCopyAssign; EkNonConstCopyAssign; EkMoveAssign; EkDtor]
  then if forallb (fun i => callable_subclass (i_dtor i) && callable_subclass (i_move i)) bases
          && forallb (fun i => callable_any (i_move i)) fields
       then Implicit else NotPresent
  else is_explicit (eget n EkMove ex).

(** engine/src/conversion/analysis/fun/implicit_constructors.rs:221-561, one struct. *)
Definition items_of (all : list (qname * items)) (s : ic_struct) : option items :=
  match fields_items all (ic_fields s) with
  | None => None
  | Some fo =>
      match get_all all (ic_bases s), fo, qmem (ic_name s) unknown with
      | Some b, Some f, false =>
          let c := copy_constructors s b f in
          Some (Items (default_constructor s b f) (destructor s b f) (fst c) (snd c) (move_constructor s b f))
      | _, _, _ => Some (explicits_only (ic_name s))
      end
  end.
(** engine/src/conversion/analysis/fun/implicit_constructors.rs:202-572, the loop; [None] is a panic. *)
Fixpoint find_all (structs : list ic_struct) (all : list (qname * items)) : option (list (qname * items)) :=
  match structs with
  | [] => Some all
  | s :: r =>
      if ic_considered s then
        match items_of all s, qget (ic_name s) all with
        | Some i, None => find_all r (all ++ [(ic_name s, i)])
        | _, _ => None
        end
      else find_all r all
  end.
End Find.

(** engine/src/conversion/analysis/fun/implicit_constructors.rs:179-573 [find_constructors_present].
    [structs] are in the order of [fields_and_bases_first] (C03 is about that order). *)
Definition find_constructors_present (fns : list sm_fn) (enums : list qname) (structs : list ic_struct)
  : option (list (qname * items)) :=
  match find_explicit_items fns [] [] with
  | None => None
  | Some (ex, unknown) => find_all ex unknown enums structs []
  end.

(** engine/src/conversion/analysis/fun/mod.rs:264-269 [from_items_found]: whether Rust code may move and
    destroy the type. *)
Definition public_constructors (o : option items) : bool * bool :=
  match o with Some i => (callable_any (i_move i), callable_any (i_dtor i)) | None => (false, false) end.

(** engine/src/conversion/analysis/fun/mod.rs:2051-2104 [add_constructors_present]: the special members
    synthesised for a type. *)
Inductive special_member := SmDefault | SmMove | SmCopy | SmDtor.
Definition synthesized (exclude_impls : bool) (blocked : string -> bool) (all : list (qname * items)) : list (qname * special_member) :=
  if exclude_impls then [] else
  flat_map (fun p =>
    if blocked (to_cpp_name (fst p)) then [] else
    (if implicit_default_needed (snd p) then [(fst p, SmDefault)] else []) ++
    (if implicit_move_needed (snd p) then [(fst p, SmMove)] else []) ++
    (if implicit_copy_needed (snd p) then [(fst p, SmCopy)] else []) ++
    (if implicit_dtor_needed (snd p) then [(fst p, SmDtor)] else [])) all.
