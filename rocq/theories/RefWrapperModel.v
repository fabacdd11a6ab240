(** Model of the C++ reference wrappers: src/reference_wrapper.rs.

    A program is a sequence of operations; each makes one new variable. Objects have an address. A [Box] or
    [UniquePtr] can move, the object it owns stays where it is. Lifetimes and types are not modelled: what the Rust compiler
    rejects because of types is [Rejected]. The [nightly] traits are not modelled. *)
From Verif Require Import Base.

Definition addr := nat.
(** [None] is the null pointer. *)
Definition ptr := option addr.

(** Values. Rust references to the wrappers are not told apart from the wrappers, which are [Copy] or only used in place. *)
Inductive value :=
| XPtr (p : ptr)                     (* *const T, *mut T *)
| XRef (p : ptr)                     (* src/reference_wrapper.rs:100 [CppRef] *)
| XLtRef (p : ptr)                   (* src/reference_wrapper.rs:163-166 [CppLtRef] *)
| XMutRef (p : ptr)                  (* src/reference_wrapper.rs:226 [CppMutRef] *)
| XMutLtRef (p : ptr)                (* src/reference_wrapper.rs:282-285 [CppMutLtRef] *)
| XPin (contents : addr) (r : ptr)   (* src/reference_wrapper.rs:388 [CppPin]: the box and the CppMutRef *)
| XUniquePin (u : ptr) (r : ptr)     (* src/reference_wrapper.rs:521 [CppUniquePtrPin] *)
| XUnique (u : ptr)                  (* UniquePtr<T> *)
| XBox (a : addr)                    (* Box<T>, Pin<Box<T>> *)
| XMoved                             (* moved away *)
| XUnit.

(** The operations; a number is the variable used. *)
Inductive op :=
| NewBox | NewUnique | NullUnique | PinNew                               (* make an object, or none *)
| PinFromBox (i : nat) | PinFromPinnedBox (i : nat) | UniquePinNew (i : nat) | Extract (i : nat) | Move (i : nat)
| AsPtr (i : nat) | AsMutPtr (i : nat) | AsCppRef (i : nat) | AsCppMutRef (i : nat) | Deref (i : nat)
| Clone (i : nat) | ConstCast (i : nat) | IntoRef (i : nat) | LifetimeCast (i : nat)
| RefFromPtr (i : nat) | LtRefFromPtr (i : nat) | MutRefFromPtr (i : nat) | MutLtRefFromPtr (i : nat)
| AssignDeref (i j : nat).                                               (* *pin = reference *)

Record state := State { vars : list value; next : addr }.
Inductive result := Ok (s : state) | Panic | Rejected.

Definition get (s : state) (i : nat) : value := nth i (vars s) XUnit.
Fixpoint set_nth (l : list value) (i : nat) (v : value) : list value :=
  match l, i with
  | [], _ => []
  | _ :: l, 0 => v :: l
  | x :: l, S i => x :: set_nth l i v
  end.
Definition push (s : state) (v : value) : result := Ok (State (vars s ++ [v]) (next s)).
(** The variable [i] is used up. *)
Definition consume (s : state) (i : nat) (v : value) : result := Ok (State (set_nth (vars s) i XMoved ++ [v]) (next s)).
Definition alloc (s : state) (v : addr -> value) : result := Ok (State (vars s ++ [v (next s)]) (S (next s))).

(** src/reference_wrapper.rs:329-336: the contents are [repr(transparent)], their address is that of the box. *)
Definition addr_of (contents : addr) : ptr := Some contents.
(** src/reference_wrapper.rs:395-402 [new] and src/reference_wrapper.rs:411-421 [from_box], from the box on. *)
Definition pin_of_box (contents : addr) : value := XPin contents (addr_of contents).

(** [as_ptr] of [CppPin] (src/reference_wrapper.rs:437-439), of [CppUniquePtrPin] (src/reference_wrapper.rs:533-538), which panics on null,
    of [CppRef] (src/reference_wrapper.rs:104-106), and of [UniquePtr] in cxx. *)
Definition as_ptr (v : value) : ptr + result :=
  match v with
  | XPin c _ => inl (addr_of c)
  | XUniquePin (Some a) _ => inl (Some a)
  | XUniquePin None _ => inr Panic
  | XRef p => inl p
  | XUnique u => inl u
  | _ => inr Rejected
  end.
(** [as_mut_ptr] of [CppPin] (src/reference_wrapper.rs:442-444), of [CppMutRef] (src/reference_wrapper.rs:230-232) and of [UniquePtr] in cxx. *)
Definition as_mut_ptr (v : value) : ptr + result :=
  match v with
  | XPin c _ => inl (addr_of c)
  | XMutRef p => inl p
  | XUnique u => inl u
  | _ => inr Rejected
  end.
(** [as_cpp_ref]: src/reference_wrapper.rs:318-322 for [CppMutRef], src/reference_wrapper.rs:488-492 for [CppPin],
    src/reference_wrapper.rs:541-545 for [CppUniquePtrPin] and src/reference_wrapper.rs:562-566 for [UniquePtr]. *)
Definition as_cpp_ref (v : value) : ptr + result :=
  match v with
  | XMutRef p => inl p
  | XPin _ _ | XUniquePin _ _ | XUnique _ => as_ptr v
  | _ => inr Rejected
  end.
(** [as_cpp_mut_ref]: src/reference_wrapper.rs:494-498 for [CppPin] and src/reference_wrapper.rs:547-551 for [CppUniquePtrPin]. *)
Definition as_cpp_mut_ref (v : value) : ptr + result :=
  match v with
  | XPin _ _ => as_mut_ptr v
  | XUniquePin _ r => inl r
  | _ => inr Rejected
  end.
(** [deref]: src/reference_wrapper.rs:168-175 for [CppLtRef], src/reference_wrapper.rs:257-265 for [CppMutRef],
    src/reference_wrapper.rs:500-506 for [CppPin] and src/reference_wrapper.rs:553-559 for [CppUniquePtrPin]. The transmutes keep the pointer. *)
Definition deref (v : value) : option value :=
  match v with
  | XLtRef p | XMutRef p => Some (XRef p)
  | XPin _ r | XUniquePin _ r => Some (XMutRef r)
  | _ => None
  end.

Definition push_ptr (s : state) (r : ptr + result) (f : ptr -> value) : result :=
  match r with inl p => push s (f p) | inr e => e end.
Definition from_raw (s : state) (v : value) (f : ptr -> value) : result :=
  match v with XPtr p => push s (f p) | _ => Rejected end.

Definition exec (s : state) (o : op) : result :=
  match o with
  | NewBox => alloc s XBox
  | NewUnique => alloc s (fun a => XUnique (Some a))
  | NullUnique => push s (XUnique None)
  | PinNew => alloc s pin_of_box
  | PinFromBox i => match get s i with XBox a => consume s i (pin_of_box a) | _ => Rejected end
  (* src/reference_wrapper.rs:430-434, from_pinned_box *)
  | PinFromPinnedBox i => match get s i with XBox a => consume s i (pin_of_box a) | _ => Rejected end
  (* src/reference_wrapper.rs:527-530, new *)
  | UniquePinNew i => match get s i with XUnique u => consume s i (XUniquePin u u) | _ => Rejected end
  (* src/reference_wrapper.rs:477-485, extract *)
  | Extract i => match get s i with XPin c _ => consume s i (XBox c) | _ => Rejected end
  | Move i => match get s i with XMoved | XUnit => Rejected | v => consume s i v end
  | AsPtr i => push_ptr s (as_ptr (get s i)) XPtr
  | AsMutPtr i => push_ptr s (as_mut_ptr (get s i)) XPtr
  | AsCppRef i => push_ptr s (as_cpp_ref (get s i)) XRef
  | AsCppMutRef i => push_ptr s (as_cpp_mut_ref (get s i)) XMutRef
  | Deref i => match deref (get s i) with Some v => push s v | None => Rejected end
  (* clone: src/reference_wrapper.rs:149-153,177-181,267-271 *)
  | Clone i => match get s i with XRef p => push s (XRef p) | XLtRef p => push s (XLtRef p) | XMutRef p => push s (XMutRef p) | _ => Rejected end
  (* src/reference_wrapper.rs:139-141, const_cast *)
  | ConstCast i => match get s i with XRef p => push s (XMutRef p) | _ => Rejected end
  (* src/reference_wrapper.rs:275-279, from *)
  | IntoRef i => match get s i with XMutRef p => push s (XRef p) | _ => Rejected end
  (* src/reference_wrapper.rs:205-207 and 290-292, lifetime_cast *)
  | LifetimeCast i => match get s i with XLtRef p => push s (XRef p) | XMutLtRef p => push s (XMutRef p) | _ => Rejected end
  (* from_ptr: src/reference_wrapper.rs:124-126,210-215,250-252,295-300 *)
  | RefFromPtr i => from_raw s (get s i) XRef
  | LtRefFromPtr i => from_raw s (get s i) XLtRef
  | MutRefFromPtr i => from_raw s (get s i) XMutRef
  | MutLtRefFromPtr i => from_raw s (get s i) XMutLtRef
  (* src/reference_wrapper.rs:508-512, deref_mut of CppPin, the result of which is assigned to *)
  | AssignDeref i j =>
      match get s i, get s j with
      | XPin c _, XMutRef p => Ok (State (set_nth (vars s) i (XPin c p) ++ [XUnit]) (next s))
      | _, _ => Rejected
      end
  end.

(** A program that neither panics nor is rejected. *)
Fixpoint run (s : state) (ops : list op) : result :=
  match ops with
  | [] => Ok s
  | o :: ops => match exec s o with Ok s1 => run s1 ops | r => r end
  end.
Definition start : state := State [] 0.
