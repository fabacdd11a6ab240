(** engine/src/conversion/api.rs:106-144: what tells apart the implementations of traits, as a key of a hash map. *)
From Verif Require Import Base.

(** engine/src/conversion/api.rs:106-111 [TraitImplSignature]: of each part the text of its tokens, which is all that is looked at
    (engine/src/conversion/api.rs:123-125 [totokens_to_string]); empty for a trait which is not unsafe. *)
Record trait_sig := TraitSig { ts_ty : string; ts_trait : string; ts_unsafety : string }.

(** engine/src/conversion/api.rs:127-129 [totokens_equal] *)
Definition totokens_equal (a b : string) : bool := String.eqb a b.
(** engine/src/conversion/api.rs:115-121 [eq] *)
Definition sig_eq (a b : trait_sig) : bool :=
  totokens_equal (ts_unsafety a) (ts_unsafety b) && totokens_equal (ts_ty a) (ts_ty b) && totokens_equal (ts_trait a) (ts_trait b).

(** The byte 255, which Rust's [Hash] of a string gives to the hasher after the string's bytes. *)
Definition end_mark : ascii := Ascii.ascii_of_nat 255.
(** engine/src/conversion/api.rs:131-134 [hash_totokens]: the bytes given to the hasher. *)
Definition hash_totokens (a : string) : list ascii := list_ascii_of_string a ++ [end_mark].
(** engine/src/conversion/api.rs:136-142 [hash] *)
Definition sig_hashed (a : trait_sig) : list ascii := hash_totokens (ts_ty a) ++ hash_totokens (ts_trait a) ++ hash_totokens (ts_unsafety a).

Section Map.
(** What the hasher makes of the bytes it is given. *)
Variable hasher : list ascii -> nat.
Variable item : Type.

(** [HashMap::entry(key).or_default().push(item)] as in engine/src/conversion/codegen_rs/mod.rs:328-333, inside append_child_output_namespace: an entry is found if the
    hash of its key is that of the key given and the keys are equal. Simplified: entries are in order of insertion; the standard library's order is not said. *)
Fixpoint entry_push (k : trait_sig) (i : item) (m : list (trait_sig * list item)) : list (trait_sig * list item) :=
  match m with
  | [] => [(k, [i])]
  | (k', is) :: m' => if Nat.eqb (hasher (sig_hashed k)) (hasher (sig_hashed k')) && sig_eq k k' then (k', is ++ [i]) :: m' else (k', is) :: entry_push k i m'
  end.
(** engine/src/conversion/codegen_rs/mod.rs:320-334, inside append_child_output_namespace: the methods of traits of a namespace, by implementation. *)
Definition trait_impls (l : list (trait_sig * item)) : list (trait_sig * list item) := fold_left (fun m x => entry_push (fst x) (snd x) m) l [].
End Map.
