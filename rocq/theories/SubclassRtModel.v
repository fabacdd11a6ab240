(** The life of Rust subclasses of C++ classes at run time.

    Models src/subclass.rs:80-346 together with the code generated for each
    subclass: on the Rust side
    engine/src/conversion/codegen_rs/mod.rs:538-740
    [generate_subclass, generate_subclass_fn] and on the C++ side
    engine/src/conversion/codegen_cpp/mod.rs:655-755 [generate_subclass].

    A subclass instance is a pair: a Rust object in an [Rc<RefCell<..>>] (here a
    cell) and its C++ peer. Memory is explicit: using a cell or a peer after it has
    been destroyed is a fault. The actions of the program around (taking, cloning and
    dropping handles, borrowing, virtual calls, deleting) are the events of [step];
    a history is any list of them. *)
From Verif Require Import Base.
Open Scope list_scope.

(** src/subclass.rs:80-83 [CppSubclassRustPeerHolder]: how the C++ peer refers to
    the Rust object in cell [c]. *)
Inductive rust_holder := RStrong (c : nat) | RWeak (c : nat).

(** src/subclass.rs:106-111 [CppSubclassCppPeerHolder]: how the Rust object refers
    to the C++ peer [p]. *)
Inductive cpp_holder := HEmpty | HOwned (p : nat) | HUnowned (p : nat).

(** The flag of a [RefCell]: free, [n + 1] shared borrows, or borrowed mutably
    (standard library). *)
Inductive flag := BNone | BShared (n : nat) | BMut.

(** [Rc<RefCell<T>>]: the strong count, the borrow flag and the only field of the
    object that matters here, added by the [subclass] attribute
    (macro/src/lib.rs:44-79). Weak counts only decide when the memory of an already
    dropped value is returned and are left out. *)
Record cell := Cell { c_strong : nat; c_flag : flag; c_obj : cpp_holder }.

(** A C++ peer: engine/src/conversion/codegen_cpp/mod.rs:733-741,
    inside generate_subclass, a class with the field [rust::Box<Holder> obs]. [None] is a
    box which has been moved from. *)
Inductive peer := PLive (obs : option rust_holder) | PFreed.

(** The three constructors: src/subclass.rs:300-307 [new_cpp_owned], :312-318
    [new_rust_owned], :332-338 [new_self_owned]. *)
Inductive mode := CppOwned | RustOwned | SelfOwned.

Inductive access := Shared | Exclusive.

(** Code in progress which holds a borrow of a cell. *)
Inductive frame :=
| FNew (m : mode) (i : nat)             (** a constructor, running [make_peer] *)
| FGuard (i : nat) (a : access)         (** a [Ref] or [RefMut] got through an [Rc] handle *)
| FUpcall (p i : nat) (a : access).     (** a virtual call of peer [p] *)

(** [rcs]: the [Rc] handles in the hands of Rust code; [ups]: the [UniquePtr]s to
    peers in the hands of Rust or C++ code; [vals]: Rust objects moved out of their
    cell. A cell is [None] after its value has been dropped. [modes] is never read:
    it only serves to state properties. *)
Record state := State {
  cells : list (option cell);
  peers : list peer;
  rcs : list nat;
  ups : list nat;
  frames : list frame;
  vals : list cpp_holder;
  modes : list mode
}.

Definition init : state := State [] [] [] [] [] [] [].

Inductive fault := UseAfterFree | DoubleFree | NoFuel.

Inductive result (A : Type) := Next (a : A) | Panics | Fault (f : fault).
Arguments Next {A}. Arguments Panics {A}. Arguments Fault {A}.

Definition bind {A B} (r : result A) (f : A -> result B) : result B :=
  match r with Next a => f a | Panics => Panics | Fault e => Fault e end.

Fixpoint upd {A} (l : list A) (i : nat) (x : A) : list A :=
  match l, i with
  | [], _ => []
  | _ :: l, 0 => x :: l
  | y :: l, S i => y :: upd l i x
  end.

Definition set_cell (i : nat) (c : option cell) (s : state) : state :=
  State (upd (cells s) i c) (peers s) (rcs s) (ups s) (frames s) (vals s) (modes s).
Definition set_peer (p : nat) (x : peer) (s : state) : state :=
  State (cells s) (upd (peers s) p x) (rcs s) (ups s) (frames s) (vals s) (modes s).
Definition set_rcs (l : list nat) (s : state) : state :=
  State (cells s) (peers s) l (ups s) (frames s) (vals s) (modes s).
Definition set_ups (l : list nat) (s : state) : state :=
  State (cells s) (peers s) (rcs s) l (frames s) (vals s) (modes s).
Definition set_frames (l : list frame) (s : state) : state :=
  State (cells s) (peers s) (rcs s) (ups s) l (vals s) (modes s).
Definition set_vals (l : list cpp_holder) (s : state) : state :=
  State (cells s) (peers s) (rcs s) (ups s) (frames s) l (modes s).

(** Access to the value of a cell. *)
Definition the_cell (s : state) (i : nat) : result cell :=
  match nth_error (cells s) i with Some (Some c) => Next c | _ => Fault UseAfterFree end.

(** Access to a peer: its [obs] field. *)
Definition the_peer (s : state) (p : nat) : result (option rust_holder) :=
  match nth_error (peers s) p with Some (PLive o) => Next o | _ => Fault UseAfterFree end.

(** Dropping a strong [Rc] of a cell ([inl]) or destroying a peer ([inr]). When the
    last strong [Rc] goes, the object is dropped and with it its peer holder
    (src/subclass.rs:106-111): an owned peer is deleted. The destructor of a peer
    drops its [obs] box (engine/src/conversion/codegen_cpp/mod.rs:735,
    inside generate_subclass). Code of the user's own [Drop] is not represented. *)
Fixpoint drop (fuel : nat) (what : nat + nat) (s : state) : result state :=
  match fuel with
  | 0 => Fault NoFuel
  | S fuel =>
      match what with
      | inl i =>
          bind (the_cell s i) (fun c =>
          match c_strong c with
          | 0 => Fault UseAfterFree
          | S 0 =>
              let s := set_cell i None s in
              match c_obj c with
              | HOwned p => drop fuel (inr p) s
              | _ => Next s
              end
          | S n => Next (set_cell i (Some (Cell n (c_flag c) (c_obj c))) s)
          end)
      | inr p =>
          match nth_error (peers s) p with
          | Some (PLive o) =>
              let s := set_peer p PFreed s in
              match o with
              | Some (RStrong i) => drop fuel (inl i) s
              | _ => Next s
              end
          | _ => Fault DoubleFree
          end
      end
  end.

(** Fuel for one event: enough for histories without [EReplace] (a theorem). *)
Definition drop_fuel : nat := 4.

(** [Rc::clone]. *)
Definition clone_rc (i : nat) (s : state) : result state :=
  bind (the_cell s i) (fun c =>
  Next (set_cell i (Some (Cell (S (c_strong c)) (c_flag c) (c_obj c))) s)).

(** src/subclass.rs:86-91 [get]: a new strong [Rc], or nothing when the value is
    gone ([Weak::upgrade]). *)
Definition holder_get (h : rust_holder) (s : state) : result (option (nat * state)) :=
  match h with
  | RStrong i => bind (clone_rc i s) (fun s => Next (Some (i, s)))
  | RWeak i =>
      match nth_error (cells s) i with
      | Some (Some _) => bind (clone_rc i s) (fun s => Next (Some (i, s)))
      | _ => Next None
      end
  end.

(** src/subclass.rs:92-99 [relinquish_ownership]: the strong [Rc] is dropped at the
    end of the match arm. *)
Definition holder_relinquish (h : rust_holder) (s : state) : result (rust_holder * state) :=
  match h with
  | RStrong i => bind (drop drop_fuel (inl i) s) (fun s => Next (RWeak i, s))
  | RWeak i => Next (RWeak i, s)
  end.

(** [RefCell::try_borrow] and [try_borrow_mut] (standard library). *)
Definition try_borrow (a : access) (b : flag) : option flag :=
  match a, b with
  | Shared, BNone => Some (BShared 0)
  | Shared, BShared n => Some (BShared (S n))
  | Exclusive, BNone => Some BMut
  | _, _ => None
  end.

(** Dropping a [Ref] or [RefMut] (standard library). *)
Definition release (a : access) (b : flag) : flag :=
  match a, b with
  | Shared, BShared (S n) => BShared n
  | _, _ => BNone
  end.

Definition borrow_cell (i : nat) (a : access) (s : state) : result (option state) :=
  bind (the_cell s i) (fun c =>
  match try_borrow a (c_flag c) with
  | Some b => Next (Some (set_cell i (Some (Cell (c_strong c) b (c_obj c))) s))
  | None => Next None
  end).

Definition release_cell (i : nat) (a : access) (s : state) : result state :=
  bind (the_cell s i) (fun c =>
  Next (set_cell i (Some (Cell (c_strong c) (release a (c_flag c)) (c_obj c))) s)).

(** src/subclass.rs:125-133 [get] and :114-124 [pin_mut]: the peer a reference is made to. An
    owned or unowned pointer is dereferenced; an empty holder panics. *)
Definition holder_peer (h : cpp_holder) (s : state) : result nat :=
  match h with
  | HEmpty => Panics
  | HOwned p | HUnowned p => bind (the_peer s p) (fun _ => Next p)
  end.

(** src/subclass.rs:134-136 [set_owned], :137-143 [set_unowned]: the old holder is
    dropped by the assignment. *)
Definition set_holder (i : nat) (h : cpp_holder) (s : state) : result state :=
  bind (the_cell s i) (fun c =>
  let s' := set_cell i (Some (Cell (c_strong c) (c_flag c) h)) s in
  match c_obj c with
  | HOwned p => drop drop_fuel (inr p) s'
  | _ => Next s'
  end).

(** engine/src/conversion/codegen_cpp/mod.rs:743-750, inside generate_subclass
    ([really_remove_ownership], reached from the method
    [cpp_remove_ownership] of the class): [auto new_obs = remove_ownership(std::move(obs));]
    then [obs = std::move(new_obs);]. The Rust function in between is
    engine/src/conversion/codegen_rs/mod.rs:660-666, inside generate_subclass. A box that
    has been moved from cannot be passed to Rust. *)
Definition really_remove_ownership (p : nat) (s : state) : result state :=
  bind (the_peer s p) (fun o =>
  match o with
  | None => Fault UseAfterFree
  | Some h =>
      let s := set_peer p (PLive None) s in
      bind (holder_relinquish h s) (fun r =>
      let (h', s) := r in
      bind (the_peer s p) (fun _ => Next (set_peer p (PLive (Some h')) s)))
  end).

Fixpoint remove1 (x : nat) (l : list nat) : list nat :=
  match l with
  | [] => []
  | y :: l => if Nat.eqb x y then l else y :: remove1 x l
  end.

Fixpoint remove_nth {A} (k : nat) (l : list A) : list A :=
  match l, k with
  | [], _ => []
  | _ :: l, 0 => l
  | x :: l, S k => x :: remove_nth k l
  end.

Definition guard_of (i : nat) (f : frame) : bool :=
  match f with FGuard j _ => Nat.eqb i j | _ => false end.

Definition frame_cell (f : frame) : nat :=
  match f with FNew _ i => i | FGuard i _ => i | FUpcall _ i _ => i end.
Definition frame_access (f : frame) : access :=
  match f with FNew _ _ => Exclusive | FGuard _ a => a | FUpcall _ _ a => a end.

(** What the program around can do. [k] is the position of a frame. *)
Inductive event :=
| ENewBegin (m : mode)        (** call a constructor, up to and including [make_peer] *)
| ENewEnd (k : nat)           (** [make_peer] returns; the rest of the constructor *)
| EClone (i : nat)            (** clone an [Rc] handle *)
| EDropRc (i : nat)           (** drop an [Rc] handle *)
| EDropUp (p : nat)           (** drop a [UniquePtr], in Rust or in C++ *)
| EGuard (i : nat) (a : access)   (** [borrow()] or [borrow_mut()] through a handle *)
| EUpcall (p : nat) (a : access)  (** C++ calls a virtual method of a living peer *)
| EEnd (k : nat)              (** a guard is dropped or an upcall returns *)
| EUse (k : nat)              (** code holding the borrow uses [peer()] *)
| EDelete (k : nat)           (** code holding the borrow calls [delete_self()] *)
| ERelinquish (p : nat)       (** Rust code holding the [UniquePtr] calls [relinquish_ownership()] *)
| ECppRemove (p : nat)        (** C++ code calls the public method of the peer's class *)
| EReplace (k : nat)          (** [mem::take(self)] through a mutable borrow *)
| EUseVal (k : nat)           (** [peer()] of an object which has been moved out *).

(** src/subclass.rs:300-307 [new_cpp_owned], :146-166 [make_owning_peer] (called by
    [new_rust_owned], :312-318, and [new_self_owned], :332-338), up to the return
    of [make_peer]: the object is put in a new cell, the holder for the C++ side is made (a clone,
    of which [new_rust_owned] keeps only a weak reference), the cell is borrowed
    mutably and the C++ peer made. Cells and peers are numbered in step, so the peer
    gets the number of the cell. That [make_peer] panics is not represented. *)
Definition new_begin (m : mode) (s : state) : state :=
  let i := List.length (cells s) in
  let '(strong, h) :=
    match m with
    | CppOwned => (2, RStrong i)
    | RustOwned => (1, RWeak i)
    | SelfOwned => (2, RStrong i)
    end in
  State (cells s ++ [Some (Cell strong BMut HEmpty)]) (peers s ++ [PLive (Some h)])
    (rcs s) (ups s) (FNew m i :: frames s) (vals s) (modes s ++ [m]).

(** The rest of the constructors: src/subclass.rs:305-306, inside new_cpp_owned (the peer
    is recorded, then [borrowed] and [me] are dropped in this order and the
    [UniquePtr] returned) and src/subclass.rs:161-165, inside make_owning_peer (the peer is
    stored and the [Rc] returned; the two successive mutable borrows are one here). *)
Definition new_end (m : mode) (i : nat) (s : state) : result state :=
  match m with
  | CppOwned =>
      bind (set_holder i (HUnowned i) s) (fun s =>
      bind (release_cell i Exclusive s) (fun s =>
      bind (drop drop_fuel (inl i) s) (fun s =>
      Next (set_ups (i :: ups s) s))))
  | RustOwned | SelfOwned =>
      bind (set_holder i (HOwned i) s) (fun s =>
      bind (release_cell i Exclusive s) (fun s =>
      Next (set_rcs (i :: rcs s) s)))
  end.

(** engine/src/conversion/codegen_rs/mod.rs:688-740 [generate_subclass_fn]: [get], panic when the
    object is gone; [try_borrow] or [try_borrow_mut] as the method is const or not,
    panic when that fails; then the user's method runs. *)
Definition upcall (p : nat) (a : access) (s : state) : result state :=
  bind (the_peer s p) (fun o =>
  match o with
  | None => Fault UseAfterFree
  | Some h =>
      bind (holder_get h s) (fun r =>
      match r with
      | None => Panics
      | Some (i, s) =>
          bind (borrow_cell i a s) (fun b =>
          match b with
          | None => Panics
          | Some s => Next (set_frames (FUpcall p i a :: frames s) s)
          end)
      end)
  end).

(** The end of an upcall: the guard [b] is dropped, then the [Rc] (locals are dropped
    in reverse order of declaration,
    engine/src/conversion/codegen_rs/mod.rs:723-731, inside generate_subclass_fn). *)
Definition upcall_end (i : nat) (a : access) (s : state) : result state :=
  bind (release_cell i a s) (fun s => drop drop_fuel (inl i) s).

(** src/subclass.rs:343-345 [delete_self] and
    engine/src/conversion/codegen_rs/mod.rs:564-570, inside generate_subclass. *)
Definition delete_self (i : nat) (s : state) : result state :=
  bind (the_cell s i) (fun c =>
  bind (holder_peer (c_obj c) s) (fun p => really_remove_ownership p s)).

(** One event. [None]: the event is not possible, because there is no such handle or frame, or
    because the borrow checker forbids it: a handle through which a guard was taken
    outlives the guard, so the last handle of a cell cannot be dropped while guards
    exist. C++ code calls virtual methods only of peers which exist. *)
Definition step (s : state) (e : event) : option (result state) :=
  match e with
  | ENewBegin m => Some (Next (new_begin m s))
  | ENewEnd k =>
      match nth_error (frames s) k with
      | Some (FNew m i) => Some (new_end m i (set_frames (remove_nth k (frames s)) s))
      | _ => None
      end
  | EClone i =>
      if existsb (Nat.eqb i) (rcs s)
      then Some (bind (clone_rc i s) (fun s => Next (set_rcs (i :: rcs s) s)))
      else None
  | EDropRc i =>
      if existsb (Nat.eqb i) (rcs s) &&
         (negb (existsb (guard_of i) (frames s)) || existsb (Nat.eqb i) (remove1 i (rcs s)))
      then Some (drop drop_fuel (inl i) (set_rcs (remove1 i (rcs s)) s))
      else None
  | EDropUp p =>
      if existsb (Nat.eqb p) (ups s)
      then Some (drop drop_fuel (inr p) (set_ups (remove1 p (ups s)) s))
      else None
  | EGuard i a =>
      if existsb (Nat.eqb i) (rcs s)
      then Some (bind (borrow_cell i a s) (fun b =>
                 match b with
                 | None => Panics
                 | Some s => Next (set_frames (FGuard i a :: frames s) s)
                 end))
      else None
  | EUpcall p a =>
      match nth_error (peers s) p with
      | Some (PLive _) => Some (upcall p a s)
      | _ => None
      end
  | EEnd k =>
      match nth_error (frames s) k with
      | Some (FGuard i a) => Some (release_cell i a (set_frames (remove_nth k (frames s)) s))
      | Some (FUpcall _ i a) => Some (upcall_end i a (set_frames (remove_nth k (frames s)) s))
      | _ => None
      end
  | EUse k =>
      match nth_error (frames s) k with
      | Some f => Some (bind (the_cell s (frame_cell f)) (fun c =>
                        bind (holder_peer (c_obj c) s) (fun _ => Next s)))
      | None => None
      end
  | EDelete k =>
      match nth_error (frames s) k with
      | Some f => Some (delete_self (frame_cell f) s)
      | None => None
      end
  | ERelinquish p =>
      if existsb (Nat.eqb p) (ups s) then Some (really_remove_ownership p s) else None
  | ECppRemove p =>
      match nth_error (peers s) p with
      | Some (PLive _) => Some (really_remove_ownership p s)
      | _ => None
      end
  | EReplace k =>
      match nth_error (frames s) k with
      | Some f =>
          match frame_access f with
          | Exclusive =>
              Some (bind (the_cell s (frame_cell f)) (fun c =>
                    Next (set_vals (c_obj c :: vals s)
                           (set_cell (frame_cell f)
                              (Some (Cell (c_strong c) (c_flag c) HEmpty)) s))))
          | Shared => None
          end
      | None => None
      end
  | EUseVal k =>
      match nth_error (vals s) k with
      | Some h => Some (bind (holder_peer h s) (fun _ => Next s))
      | None => None
      end
  end.

(** A history. [None]: some event was not possible. *)
Fixpoint run (s : state) (es : list event) : option (result state) :=
  match es with
  | [] => Some (Next s)
  | e :: es =>
      match step s e with
      | Some (Next s') => run s' es
      | r => r
      end
  end.
