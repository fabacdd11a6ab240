(** C10, C11, C12: names given to functions. *)
From Verif Require Import Base TrackersModel TrackersProofs.

(** ** C10 *)
(** The name the tracker gives to the i-th request of a run starting from scratch. *)
Definition overload_names (rs : list overload_req) : list string := snd (overload_run [] rs).

(** Exact behaviour: a request receives its own name, followed by the number of earlier identical
    requests (same namespace, same type, same name) if there are any. *)
Theorem c10_exact_names : forall rs i r, nth_error rs i = Some r ->
  let earlier := count_occ oreq_eq_dec (firstn i rs) r in
  nth_error (overload_names rs) i =
    Some (if earlier =? 0 then or_name r else or_name r +++ dec earlier).
Proof.
  intros rs i r H. unfold overload_names. rewrite (overload_run_spec rs [] []) by reflexivity.
  exact (overload_spec_nth rs [] i r H).
Qed.
Print Assumptions c10_exact_names.

(** [a] extends [b] by decimal digits. *)
Definition extends_by_digits (a b : string) : Prop :=
  exists d, d <> "" /\ all_chars is_digit d = true /\ a = b +++ d.

(** Names chosen within one type (or among the free functions of a namespace) differ,
    provided no requested name is another requested name followed by digits.
    Missing from the full claim: exactly those cases, see below. *)
Theorem c10_overload_names_unique_partial : forall rs i j ri rj,
  i <> j -> nth_error rs i = Some ri -> nth_error rs j = Some rj ->
  or_ns ri = or_ns rj -> or_ty ri = or_ty rj ->
  ~ extends_by_digits (or_name ri) (or_name rj) -> ~ extends_by_digits (or_name rj) (or_name ri) ->
  nth_error (overload_names rs) i <> nth_error (overload_names rs) j.
Proof.
  intros rs i j ri rj N Hi Hj En Et X1 X2.
  unfold overload_names. rewrite (overload_run_spec rs [] []) by reflexivity.
  rewrite (overload_spec_nth rs [] i ri Hi), (overload_spec_nth rs [] j rj Hj). cbn [count_occ Nat.add].
  intros E. inversion E as [E']. apply render_inj in E'. destruct E' as [[Em Ek]|(d & D1 & D2 & [D3|D3])].
  - assert (ri = rj) by (destruct ri, rj; simpl in *; congruence). subst rj.
    destruct (Nat.lt_total i j) as [L|[L|L]]; [|contradiction|];
      apply (count_occ_firstn_lt rs _ _ ri L) in Hi || apply (count_occ_firstn_lt rs _ _ ri L) in Hj; lia.
  - apply X1. exists d. auto.
  - apply X2. exists d. auto.
Qed.
Print Assumptions c10_overload_names_unique_partial.

(** The full claim is false: methods f, f and f1 of one class get names f, f1 and f1. *)
Theorem c10_overload_names_unique_refuted : exists ns ty a b c,
  let rs := [OReq ns ty a; OReq ns ty b; OReq ns ty c] in
  nth_error (overload_names rs) 1 = nth_error (overload_names rs) 2 /\ overload_names rs = ["f"; "f1"; "f1"].
Proof. exists [], (Some "T"), "f", "f", "f1". vm_compute. auto. Qed.
Print Assumptions c10_overload_names_unique_refuted.

Example c10_nonvacuous :
  let rs := [OReq ["a"] (Some "T") "get"; OReq [] (Some "T") "get"; OReq ["a"] (Some "T") "set"; OReq ["a"] (Some "T") "get"] in
  overload_names rs = ["get"; "get"; "set"; "get1"] /\ ~ extends_by_digits "get" "set" /\ ~ extends_by_digits "get" "get".
Proof.
  split; [reflexivity|]. split; intros [d [D1 [_ E]]]; [discriminate|].
  simpl in E. injection E as E. congruence.
Qed.

(** ** C11 *)
Definition bridge_names (rs : list bridge_req) : list string := snd (bridge_run [] rs).

(** All bridge names of a run are pairwise different, provided no C++ function is called
    something ending in [autocxx] and a number. Missing from the full claim: such names, see below. *)
Theorem c11_bridge_names_unique_partial : forall rs,
  (forall r a n, In r rs -> br_name r <> a +++ "autocxx" +++ dec n) ->
  NoDup (bridge_names rs).
Proof. intros rs H. apply bridge_run_nodup. intros r Hr a k. apply H, Hr. Qed.
Print Assumptions c11_bridge_names_unique_partial.

(** None of them is the reserved method name [new]; no premise. *)
Theorem c11_never_new : forall rs, ~ In "new" (bridge_names rs).
Proof.
  unfold bridge_names. intros rs. generalize (@nil (string * nat)) as cs.
  induction rs as [|r rs IH]; intros cs; [intros []|]. cbn [bridge_run].
  assert (N := bridge_not_new cs r). destruct (bridge_step cs r) as [cs1 o]. cbn [snd] in N.
  specialize (IH cs1). destruct (bridge_run cs1 rs) as [cs2 os]. cbn [snd] in *.
  intros [E|H]; contradiction.
Qed.
Print Assumptions c11_never_new.

(** Every name is derived from the request: its own name, or that name after the namespace and type,
    or the latter with a number. *)
Theorem c11_names_derived_from_request : forall rs i r, nth_error rs i = Some r ->
  exists out, nth_error (bridge_names rs) i = Some out /\
  let found := if String.eqb (br_name r) "new" then "new_autocxx" else br_name r in
  let long := join "_" (br_ns r ++ (match br_ty r with Some t => [t] | None => [] end) ++ [found]) in
  out = found \/ out = long \/ exists n, out = long +++ "_autocxx" +++ dec n.
Proof.
  unfold bridge_names. intros rs. generalize (@nil (string * nat)) as cs.
  induction rs as [|x rs IH]; intros cs i r H; [destruct i; discriminate|]. cbn [bridge_run].
  assert (T := bridge_step_tag cs x). destruct (bridge_step cs x) as [cs1 o]. cbn [snd] in T.
  specialize (IH cs1). destruct (bridge_run cs1 rs) as [cs2 os]. cbn [snd] in *.
  destruct i as [|i]; simpl in H |- *.
  - inversion H; subst x. exists o. split; [reflexivity|]. subst o. unfold bridge_tag.
    destruct (count_of (bridge_found r) cs =? 0); [left; reflexivity|].
    destruct (count_of (bridge_prefix r) cs =? 0); [right; left; reflexivity|].
    right; right. eexists. reflexivity.
  - apply IH, H.
Qed.
Print Assumptions c11_names_derived_from_request.

(** The full claim is false: free functions do, do and do_autocxx1. (The name checker, C09, then
    rejects both clashing functions.) *)
Theorem c11_bridge_names_unique_refuted : exists rs, ~ NoDup (bridge_names rs).
Proof.
  exists [BReq None "do" []; BReq None "do" []; BReq None "do_autocxx1" []].
  vm_compute. intros N. inversion N as [|? ? _ N1]; subst. inversion N1 as [|? ? H _]; subst.
  apply H. left; reflexivity.
Qed.
Print Assumptions c11_bridge_names_unique_refuted.
(** Also a method merely called [autocxx1] can clash, through its class's name. *)
Theorem c11_method_name_refuted : exists ty rs, ~ NoDup (bridge_names rs) /\
  In (BReq (Some ty) "autocxx1" []) rs.
Proof.
  exists "do", [BReq None "autocxx1" []; BReq None "do" []; BReq None "do" []; BReq (Some "do") "autocxx1" []].
  split; [|simpl; auto 6]. vm_compute. intros N.
  inversion N as [|? ? _ N1]; subst. inversion N1 as [|? ? _ N2]; subst. inversion N2 as [|? ? H _]; subst.
  apply H. left; reflexivity.
Qed.

Example c11_nonvacuous :
  let rs := [BReq None "do" []; BReq None "do" []; BReq (Some "ty1") "do" []; BReq (Some "ty1") "do" [];
             BReq (Some "ty") "new" ["A"; "B"]; BReq (Some "ty") "new" ["A"; "B"]] in
  bridge_names rs = ["do"; "do_autocxx1"; "ty1_do"; "ty1_do_autocxx1"; "new_autocxx"; "A_B_ty_new_autocxx"] /\
  (forall r a n, In r rs -> br_name r <> a +++ "autocxx" +++ dec n).
Proof.
  split; [vm_compute; reflexivity|]. intros r a n H E.
  assert (L := f_equal String.length E). rewrite !slen_app in L.
  assert (String.length (br_name r) <= 3) by (simpl in H; repeat destruct H as [<-|H]; simpl; try lia; elim H).
  simpl in L. lia.
Qed.

(** ** C12 *)
(** Wrapper names of different bridge names differ, except that a name and the same name
    followed by one underscore share theirs. *)
Theorem c12_wrapper_names_unique_partial : forall hash p q, p <> q ->
  wrapper_name hash p = wrapper_name hash q -> p = q +++ "_" \/ q = p +++ "_".
Proof. intros hash p q N E. destruct (wrapper_inj hash p q E) as [|[|]]; [contradiction | auto | auto]. Qed.
Print Assumptions c12_wrapper_names_unique_partial.

(** The exception is real: functions [foo] and [foo_]. *)
Theorem c12_wrapper_names_unique_refuted : forall hash, exists p q, p <> q /\ wrapper_name hash p = wrapper_name hash q.
Proof. intros hash. exists "foo", "foo_". split; [discriminate | reflexivity]. Qed.
Print Assumptions c12_wrapper_names_unique_refuted.

(** A bridge name not itself ending in this block's hash is never a wrapper's name. *)
Theorem c12_wrapper_differs_from_plain : forall hash p q,
  (forall a, q <> a +++ "_" +++ hash) -> wrapper_name hash p <> q.
Proof. intros hash p q H E. apply (H (p +++ (if ends_with "_" p then "" else "_") +++ "autocxx_wrapper")). rewrite <- E. reflexivity. Qed.
Print Assumptions c12_wrapper_differs_from_plain.

(** Wrappers never clash with the string constructor of the block. *)
Theorem c12_wrapper_differs_from_make_string : forall hash p, wrapper_name hash p <> makestring_name hash.
Proof.
  intros hash p E. unfold wrapper_name, makestring_name, uniquify_name_per_mod in E.
  apply sapp_inj_r in E.
  assert (X : ends_with "wrapper" "autocxx_make_string" = true); [|discriminate X].
  apply ends_with_spec. rewrite <- E. exists (p +++ (if ends_with "_" p then "" else "_") +++ "autocxx_").
  rewrite !sapp_assoc. reflexivity.
Qed.
Print Assumptions c12_wrapper_differs_from_make_string.

(** Wrappers of blocks with different hashes never clash (hashes are hexadecimal, so hold no underscore). *)
Theorem c12_wrappers_of_different_blocks : forall h h' p q,
  any_char (Ascii.eqb "_") h = false -> any_char (Ascii.eqb "_") h' = false ->
  wrapper_name h p = wrapper_name h' q -> h = h'.
Proof.
  intros h h' p q H H' E. unfold wrapper_name, uniquify_name_per_mod in E.
  apply (last_sep_split "_" _ _ h h' H H') in E. apply E.
Qed.
Print Assumptions c12_wrappers_of_different_blocks.

Example c12_nonvacuous :
  wrapper_name "0x2a" "foo" = "foo_autocxx_wrapper_0x2a" /\ wrapper_name "0x2a" "bar_" = "bar_autocxx_wrapper_0x2a" /\
  any_char (Ascii.eqb "_") "0x2a" = false.
Proof. repeat split. Qed.
