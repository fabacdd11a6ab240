(** Model of the attributes which mark Rust items for C++ (macro/src/lib.rs): what the compiler accepts, beside what the search of the engine takes for exported. *)
From Verif Require Import Base ConfigModel DiscoverModel.
Local Open Scope list_scope.

(** Items as the attributes tell them apart; a function has its signature, its first parameter and the nodes of its body, parameters and result. A method parses as a function, too. *)
Inductive ritem := RiStruct (id : string) | RiEnum (id : string) | RiFn (s : signature) (first : first_param) (inner : list (role * node)) | RiOther.
Inductive mark := MarkType | MarkFun.

(** macro/src/lib.rs:88-99 [extern_rust_type]; [None] is an error of the compiler. *)
Definition extern_rust_type (no_args : bool) (i : option ritem) : option ritem :=
  if negb no_args then None
  else match i with
       | None => None
       | Some ((RiStruct _ | RiEnum _ | RiFn _ _ _) as x) => Some x
       | Some RiOther => None
       end.
(** macro/src/lib.rs:105-116 [extern_rust_function] *)
Definition extern_rust_function (no_args : bool) (i : option ritem) : option ritem :=
  if negb no_args then None
  else match i with
       | None => None
       | Some (RiFn s f n as x) => Some x
       | Some _ => None
       end.
Definition compile (m : mark) : bool -> option ritem -> option ritem :=
  match m with MarkType => extern_rust_type | MarkFun => extern_rust_function end.
(** macro/src/lib.rs:124-131 [cpp_semantics] *)
Definition cpp_semantics (no_args : bool) (i : option ritem) : option ritem := None.

(** Where an item is: directly in a module, in an [impl] block, for a class of a single name or otherwise (a trait, a path of several names), or in a trait. *)
Inductive place := InModule | InImpl (cls : option string) | InTrait.

(** What the search sees of an item with a mark (engine/src/ast_discoverer.rs:499-507 [has_attr]). *)
Definition is_type (m : mark) : bool := match m with MarkType => true | MarkFun => false end.
Definition is_fun (m : mark) : bool := match m with MarkFun => true | MarkType => false end.
Definition node_of (m : mark) (p : place) (i : ritem) : node :=
  match p, i with
  | InModule, RiStruct id => Node (KStruct (is_type m) id) []
  | InModule, RiEnum id => Node (KEnum (is_type m) id) []
  | InModule, RiFn s _ inner => Node (KFn (is_fun m) s) inner
  | InImpl cls, RiFn s first inner => Node (KImpl cls) [(RItem, Node (KImplFn (is_fun m) s first) inner)]
  | InTrait, RiFn _ _ inner => Node KTrait [(RItem, Node KTraitFn inner)]
  | InImpl cls, _ => Node (KImpl cls) [(RItem, Node KImplOther [])]
  | InTrait, _ => Node KTrait [(RItem, Node KTraitOther [])]
  | InModule, RiOther => Node KOtherItem []
  end.
(** It is in modules within each other, the outermost first. *)
Definition in_modules (path : list string) (n : node) : node := fold_right (fun id n => Node (KMod id) [(RItem, n)]) n path.
