(** C++ class declarations and the rules for special member functions, stated after the C++ standard
    ([class.default.ctor], [class.dtor], [class.copy.ctor]) and without the code under study. Left out:
    unions, const members, default member initialisers, explicitly defaulted functions, templates, friends,
    virtual bases which are not also direct ones. *)
From Coq Require Import Permutation.
From Verif Require Import Base ImplicitCtorsModel.

(** What a class declares: special members and other constructors; [DCopy true] takes [const T&]. *)
Inductive dkind := DDefault | DCopy (const_arg : bool) | DMove | DOtherCtor | DDtor | DCopyAssign | DMoveAssign | DMethod.
Record decl := Decl { d_kind : dkind; d_vis : cpp_vis; d_deleted : bool }.
(** A data member: of class, enum or built-in type (or an array of such), a pointer, a reference, an
    rvalue reference. *)
Inductive cfield := CVal (t : qname) | CPtr | CRef | CRRef.
Record cclass := Class { c_name : qname; c_decls : list decl; c_bases : list qname; c_fields : list cfield }.
Record program := Program { p_classes : list cclass; p_enums : list qname }.

Inductive asker := FromSubclass | FromAnyone.
Definition grants (v : cpp_vis) (w : asker) : Prop :=
  match v, w with VPublic, _ => True | VProtected, FromSubclass => True | _, _ => False end.
Definition is_ctor (k : dkind) : Prop := match k with DDefault | DCopy _ | DMove | DOtherCtor => True | _ => False end.
Definition stands_for (m : special_member) (k : dkind) : Prop :=
  match m, k with SmDefault, DDefault | SmMove, DMove | SmCopy, DCopy _ | SmDtor, DDtor => True | _, _ => False end.
Definition declares (c : cclass) (k : dkind) : Prop := exists d, In d (c_decls c) /\ d_kind d = k.

Section Rules.
Variable prog : program.
(** What the built-in types have. *)
Variable bi : special_member -> qname -> Prop.

(** [usable w m q]: code in [w] may call member [m] of type [q]. [implicit m c]: C++ itself declares
    member [m] of [c], public and not deleted. *)
Inductive usable : asker -> special_member -> qname -> Prop :=
| us_built_in w m q : bi m q -> usable w m q
| us_enum w m q : In q (p_enums prog) -> usable w m q
| us_declared w m c d rest : In c (p_classes prog) -> Permutation (c_decls c) (d :: rest) ->
    stands_for m (d_kind d) -> d_deleted d = false -> grants (d_vis d) w ->
    (forall d', In d' rest -> ~ stands_for m (d_kind d')) -> usable w m (c_name c)
| us_implicit w m c : In c (p_classes prog) -> implicit m c -> usable w m (c_name c)
with implicit : special_member -> cclass -> Prop :=
| im_default c :
    (forall d, In d (c_decls c) -> ~ is_ctor (d_kind d)) ->
    ~ In CRef (c_fields c) -> ~ In CRRef (c_fields c) ->
    (forall b, In b (c_bases c) -> usable FromSubclass SmDtor b /\ usable FromSubclass SmDefault b) ->
    (forall t, In (CVal t) (c_fields c) -> usable FromAnyone SmDtor t /\ usable FromAnyone SmDefault t) ->
    implicit SmDefault c
| im_dtor c :
    ~ declares c DDtor ->
    (forall b, In b (c_bases c) -> usable FromSubclass SmDtor b) ->
    (forall t, In (CVal t) (c_fields c) -> usable FromAnyone SmDtor t) ->
    implicit SmDtor c
| im_copy c :
    ~ declares c (DCopy true) -> ~ declares c (DCopy false) -> ~ declares c DMove -> ~ declares c DMoveAssign ->
    ~ In CRRef (c_fields c) ->
    (forall b, In b (c_bases c) -> usable FromSubclass SmDtor b /\ usable FromSubclass SmCopy b) ->
    (forall t, In (CVal t) (c_fields c) -> usable FromAnyone SmDtor t /\ usable FromAnyone SmCopy t) ->
    implicit SmCopy c
| im_move c :
    ~ declares c (DCopy true) -> ~ declares c (DCopy false) -> ~ declares c DMove -> ~ declares c DMoveAssign ->
    ~ declares c DCopyAssign -> ~ declares c DDtor ->
    (forall b, In b (c_bases c) -> usable FromSubclass SmDtor b /\ movable FromSubclass b) ->
    (forall t, In (CVal t) (c_fields c) -> usable FromAnyone SmDtor t /\ movable FromAnyone t) ->
    implicit SmMove c
(** Overload resolution takes the move constructor, or the copy constructor if no move constructor is
    declared. *)
with movable : asker -> qname -> Prop :=
| mv_move w q : usable w SmMove q -> movable w q
| mv_copy w q : (forall c, In c (p_classes prog) -> c_name c = q -> ~ declares c DMove) -> usable w SmCopy q -> movable w q.
End Rules.
