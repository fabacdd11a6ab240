(** Model of how Rust arguments are passed to C++ parameters by value and by rvalue reference:
    src/value_param.rs and src/rvalue_param.rs, together with the code generated around them.

    Memory is a map from addresses to cells. A C++ object is at an address; constructing, destroying and
    using it needs the right state of the cell, anything else is undefined behaviour and ends the run. What a C++
    copy or move constructor does to the contents is not modelled: a moved-from object stays alive. A C++ exception
    ends the process in cxx and is not modelled; destructors do not panic. *)
From Verif Require Import Base.

Definition addr := nat.
(** Memory without an object, with an object, and with an object that was destroyed. *)
Inductive cell := CUninit | CLive | CDead.
Inductive event := EConstruct (a : addr) | EDestroy (a : addr) | ECall (ptrs : list addr).
(** [m_next] is the first address that was never used. *)
Record mem := Mem { m_cells : addr -> cell; m_next : addr; m_trace : list event }.
(** A panic unwinds. *)
Inductive out (A : Type) := Done (x : A) | Panicked | Undefined.
Arguments Done {A} x.
Arguments Panicked {A}.
Arguments Undefined {A}.

Definition set_cell (m : mem) (a : addr) (c : cell) (es : list event) : mem :=
  Mem (fun b => if Nat.eqb b a then c else m_cells m b) (m_next m) (m_trace m ++ es).

(** ** Operations on memory *)

(** A C++ constructor runs at [a]. *)
Definition construct (a : addr) (m : mem) : mem * out unit :=
  match m_cells m a with
  | CUninit => (set_cell m a CLive [EConstruct a], Done tt)
  | _ => (m, Undefined)
  end.
(** A C++ destructor runs at [a]. *)
Definition destroy (a : addr) (m : mem) : mem * out unit :=
  match m_cells m a with
  | CLive => (set_cell m a CDead [EDestroy a], Done tt)
  | _ => (m, Undefined)
  end.
(** Something uses the object at [a]. *)
Definition use (a : addr) (m : mem) : mem * out unit :=
  match m_cells m a with CLive => (m, Done tt) | _ => (m, Undefined) end.

Fixpoint seq (f : addr -> mem -> mem * out unit) (l : list addr) (m : mem) : mem * out unit :=
  match l with
  | [] => (m, Done tt)
  | a :: l => match f a m with (m1, Done _) => seq f l m1 | r => r end
  end.

(** ** Arguments *)

(** A moveit constructor, [impl New]: the objects it uses, the objects it owns and drops when it has run,
    and whether it panics instead of constructing the object. *)
Record ctor := Ctor { c_uses : list addr; c_owns : list addr; c_panics : bool }.

(** The implementations of [ValueParam] in src/value_param.rs:86-241 and of [RValueParam] in
    src/rvalue_param.rs:39-74. [None] is a null [UniquePtr]. *)
Inductive param :=
| VRef (src : addr)                 (* &T *)
| VUnique (p : option addr)         (* UniquePtr<T> *)
| VBox (p : addr)                   (* Pin<Box<T>> *)
| VRefUnique (p : option addr)      (* &UniquePtr<T> *)
| VRefBox (p : addr)                (* &Pin<Box<T>> *)
| VNew (c : ctor)                   (* ByNew<N> *)
| RUnique (p : option addr)         (* UniquePtr<T> for T&& *)
| RBox (p : addr)                   (* Pin<Box<T>> for T&& *)
| RMoveRef (p : addr).              (* Pin<MoveRef<T>> for T&& *)

(** src/value_param.rs:197-199 [as_new]. *)
Definition as_new (c : ctor) : param := VNew c.
(** A pointer to the object at [p_target]; it owns the object or borrows it. *)
Record pointer := Ptr { p_target : addr; p_owned : bool }.
Definition ptr_owns (p : pointer) : list addr := if p_owned p then [p_target p] else [].
(** src/value_param.rs:202-207 [as_copy]. *)
Definition as_copy (p : pointer) : param := VNew (Ctor [p_target p] (ptr_owns p) false).
(** src/value_param.rs:210-215 [as_mov]; a pointer which can be moved from owns its object, which is destroyed after
    the move. *)
Definition as_mov (a : addr) : param := VNew (Ctor [a] [a] false).

(** The stack storage: [StackStorage] of each implementation (src/value_param.rs:90,118,139,159,180,221) or
    the parameter itself (src/rvalue_param.rs:95). [SMaybe] is [MaybeUninit<T>], which lies inside the
    handler. *)
Inductive storage := SMaybe | SUnique (p : option addr) | SBox (p : addr).
(** src/value_param.rs:249-254 [ValueParamHandler] and src/rvalue_param.rs:89-98 [RValueParamHandler], with
    the address of the space in the handler, which is on the stack and does not move. *)
Record handler := Handler { h_slot : addr; h_space : option storage }.

(** src/value_param.rs:283-290, [default], and src/rvalue_param.rs:130-138: a new handler on the stack. *)
Definition handler_default (m : mem) : mem * handler :=
  (Mem (fun b => if Nat.eqb b (m_next m) then CUninit else m_cells m b) (S (m_next m)) (m_trace m), Handler (m_next m) None).

(** Dropping a value of type [Option<StackStorage>] as a field or because it is overwritten. [MaybeUninit] drops
    nothing. *)
Definition drop_field (s : option storage) (m : mem) : mem * out unit :=
  match s with
  | None | Some SMaybe | Some (SUnique None) => (m, Done tt)
  | Some (SUnique (Some a)) | Some (SBox a) => destroy a m
  end.

(** src/value_param.rs:292-298, [drop], then the field. [do_drop] (src/value_param.rs:105-109,171-173,190-192,236-240) is there for
    [MaybeUninit] only, it takes for granted that there is an object. *)
Definition drop_handler (h : handler) (m : mem) : mem * out unit :=
  match h_space h with
  | Some SMaybe => destroy (h_slot h) m
  | s => drop_field s m
  end.
Fixpoint drop_handlers (hs : list handler) (m : mem) : mem * out unit :=
  match hs with
  | [] => (m, Done tt)
  | h :: hs => match drop_handler h m with (m1, Done _) => drop_handlers hs m1 | r => r end
  end.

(** [*slot = Some(MaybeUninit::uninit())] in src/value_param.rs:92-97,223-228. *)
Definition assign_uninit (h : handler) (m : mem) : mem * handler :=
  (set_cell m (h_slot h) CUninit [], Handler (h_slot h) (Some SMaybe)).

(** [N::new]: run the constructor at [a], then drop it. *)
Definition run_new (c : ctor) (a : addr) (m : mem) : mem * out unit :=
  match seq use (c_uses c) m with
  | (m1, Done _) =>
      if c_panics c then
        match seq destroy (c_owns c) m1 with (m2, Done _) => (m2, Panicked) | r => r end
      else
        match construct a m1 with (m2, Done _) => seq destroy (c_owns c) m2 | r => r end
  | r => r
  end.

(** src/value_param.rs:92-97, [populate_stack_space] for [&T]. *)
Definition populate_ref (src : addr) (h : handler) (m : mem) : mem * handler * out unit :=
  let (m1, h1) := assign_uninit h m in
  let (m2, r) := run_new (Ctor [src] [] false) (h_slot h) m1 in (m2, h1, r).
(** Assigning [Some(self)] (src/value_param.rs:120-123,141-144 and src/rvalue_param.rs:109-113): the
    old value is dropped. *)
Definition populate_move (s : storage) (h : handler) (m : mem) : mem * handler * out unit :=
  let (m1, r) := drop_field (h_space h) m in (m1, Handler (h_slot h) (Some s), r).

(** src/value_param.rs:263-266 [populate], with [populate_stack_space] of each kind (src/value_param.rs:92-97,120-123,141-144,161-165,182-184,223-228),
    and src/rvalue_param.rs:109-113 [populate]. *)
Definition populate (p : param) (h : handler) (m : mem) : mem * handler * out unit :=
  match p with
  | VRef src | VRefBox src => populate_ref src h m
  | VRefUnique None => (m, h, Panicked)
  | VRefUnique (Some src) => populate_ref src h m
  | VUnique q | RUnique q => populate_move (SUnique q) h m
  | VBox q | RBox q | RMoveRef q => populate_move (SBox q) h m
  | VNew c =>
      let (m1, h1) := assign_uninit h m in
      let (m2, r) := run_new c (h_slot h) m1 in (m2, h1, r)
  end.

(** src/value_param.rs:272-280 [get_ptr] and src/rvalue_param.rs:119-127 [get_ptr], with [get_ptr] of each kind; [assume_init_mut] needs an
    object. *)
Definition get_ptr (h : handler) (m : mem) : out addr :=
  match h_space h with
  | None => Panicked
  | Some SMaybe => match m_cells m (h_slot h) with CLive => Done (h_slot h) | _ => Undefined end
  | Some (SUnique None) => Panicked
  | Some (SUnique (Some a)) | Some (SBox a) => Done a
  end.
Fixpoint get_ptrs (hs : list handler) (m : mem) : out (list addr) :=
  match hs with
  | [] => Done []
  | h :: hs =>
      match get_ptr h m with
      | Done a => match get_ptrs hs m with Done l => Done (a :: l) | r => r end
      | Panicked => Panicked
      | Undefined => Undefined
      end
  end.

(** Dropping an argument which was not used. *)
Definition owned (p : param) : list addr :=
  match p with
  | VRef _ | VRefUnique _ | VRefBox _ => []
  | VUnique q | RUnique q => match q with Some a => [a] | None => [] end
  | VBox q | RBox q | RMoveRef q => [q]
  | VNew c => c_owns c
  end.
Definition drop_params (ps : list param) (m : mem) : mem * out unit := seq destroy (flat_map owned ps) m.

(** ** The generated function *)

(** The C++ function uses its arguments. *)
Definition call (ptrs : list addr) (m : mem) : mem * out unit :=
  match seq use ptrs m with
  | (m1, Done _) => (Mem (m_cells m1) (m_next m1) (m_trace m1 ++ [ECall ptrs]), Done tt)
  | r => r
  end.

(** A function with these parameters as engine/src/conversion/codegen_rs/fun_codegen.rs:234-349, inside common_parts, makes it from
    engine/src/conversion/codegen_rs/function_wrapper_rs.rs:115-156, inside rust_conversion: for each parameter in turn a handler which is then populated, then all
    the pointers, then the call. At the end and on a panic the handlers go in reverse order ([hs] has the last first), then the
    arguments not used yet. *)
Fixpoint run_wrapper (ps : list param) (hs : list handler) (m : mem) : mem * out unit :=
  match ps with
  | [] =>
      match get_ptrs (rev hs) m with
      | Done ptrs =>
          match call ptrs m with
          | (m1, Done _) => drop_handlers hs m1
          | r => r
          end
      | Panicked => match drop_handlers hs m with (m1, Done _) => (m1, Panicked) | r => r end
      | Undefined => (m, Undefined)
      end
  | p :: ps =>
      let (m1, h) := handler_default m in
      match populate p h m1 with
      | (m2, h2, Done _) => run_wrapper ps (h2 :: hs) m2
      | (m2, h2, Panicked) =>
          match drop_handlers (h2 :: hs) m2 with
          | (m3, Done _) => match drop_params (rev ps) m3 with (m4, Done _) => (m4, Panicked) | r => r end
          | r => r
          end
      | (m2, _, Undefined) => (m2, Undefined)
      end
  end.
