(** C97: what is marked for C++ is exported or refused. *)
From Verif Require Import Base ConfigModel DiscoverModel DiscoverProps AttrModel.
Local Open Scope list_scope.

(** The attributes leave the item as it is, or are errors; with arguments they always are. *)
Theorem c97_unchanged :
  forall m no_args i x, compile m no_args i = Some x -> no_args = true /\ i = Some x.
Proof. intros [] [] [[]|] x H; cbn in H; try discriminate; injection H as <-; auto. Qed.
Print Assumptions c97_unchanged.

Definition steps (path : list string) : list (kind * role) := map (fun id => (KMod id, RItem)) path.
Lemma occurs_in_modules path n way k : occurs n way k -> occurs (in_modules path n) (steps path ++ way) k.
Proof. intros O. induction path as [|id p IH]; [exact O|]. cbn. eapply occ_in; [left; reflexivity|exact IH]. Qed.
Lemma seen_steps path way : seen way -> seen (steps path ++ way).
Proof. intros S. apply Forall_app. split; [|exact S]. apply Forall_forall. intros x I. apply in_map_iff in I. destruct I as (id & <- & _). reflexivity. Qed.
Lemma modules_steps path way : modules (steps path ++ way) = path ++ modules way.
Proof. unfold modules, steps. rewrite flat_map_app. f_equal. induction path as [|id p IH]; [reflexivity|]. cbn. rewrite IH. reflexivity. Qed.

(** A struct or enum which the compiler accepts with [extern_rust_type] is exported under its path, wherever in the modules of the file it is. *)
Theorem c97_types :
  forall ws path i x id, extern_rust_type true (Some i) = Some x -> (x = RiStruct id \/ x = RiEnum id) ->
    exists d, search ws None None (in_modules path (node_of MarkType InModule i)) no_discoveries = Ok d /\ d_types d = [path ++ [id]] /\ d_funs d = [].
Proof.
  intros ws path i x id H X. assert (i = x) by (destruct i; cbn in H; congruence). subst i.
  assert (G : forall path mp, search ws mp None (in_modules path (node_of MarkType InModule x)) no_discoveries = Ok (Disc [] [] [mod_list mp ++ path ++ [id]])).
  { clear H. induction path0 as [|a p IH]; intros mp.
    - destruct X as [-> | ->]; destruct mp; reflexivity.
    - cbn [in_modules fold_right]. fold (in_modules p (node_of MarkType InModule x)). cbn [search own visits inner_mod inner_recv]. rewrite IH. destruct mp; cbn; rewrite <- ?app_assoc; reflexivity. }
  rewrite G. eexists. split; [reflexivity|]. auto.
Qed.
Print Assumptions c97_types.

(** A function in a module which the compiler accepts with [extern_rust_function] is exported under its path, if the search ends well. *)
Theorem c97_functions :
  forall ws path i s first inner d,
    extern_rust_function true (Some i) = Some (RiFn s first inner) ->
    search ws None None (in_modules path (node_of MarkFun InModule i)) no_discoveries = Ok d ->
    In (RustFun (path ++ [sig_ident s]) s false) (d_funs d).
Proof.
  intros ws path i s first inner d H S. destruct i; cbn in H; try discriminate. injection H as -> -> ->. apply (c70_functions _ _ _ _ S). left. exists (steps path ++ []), s.
  split; [apply occurs_in_modules; constructor|]. split; [apply seen_steps; constructor|]. rewrite modules_steps. cbn. rewrite app_nil_r. reflexivity.
Qed.
Print Assumptions c97_functions.

(** A method which the compiler accepts with [extern_rust_function] is exported with its class, or is an error of the engine, which it is exactly in a module, without a class of a single name, or without a parameter. *)
Theorem c97_methods :
  forall ws path cls i s first,
    extern_rust_function true (Some i) = Some (RiFn s first []) ->
    match search ws None None (in_modules path (node_of MarkFun (InImpl cls) i)) no_discoveries with
    | Ok d => path = [] /\ first <> NoParam /\ exists c, cls = Some c /\ d_types d = [[c]]
        /\ d_funs d = [RustFun [sig_ident s] (match first with Receiver t => ws (substitute_self c t) s | _ => s end) true]
    | Err e => e <> DPanic /\ (path <> [] \/ cls = None \/ first = NoParam)
    end.
Proof.
  intros ws path cls i s first H. destruct i; cbn in H; try discriminate. injection H as -> -> ->. destruct path as [|a p].
  - destruct cls as [c|]; cbn; [|split; [discriminate|auto]]. destruct first; cbn; [split; [discriminate|auto]| |]; (split; [reflexivity|]; split; [discriminate|]; exists c; auto).
  - assert (G : forall p q, search ws (Some q) None (in_modules p (node_of MarkFun (InImpl cls) (RiFn s first []))) no_discoveries = Err FunWithinMod).
    { induction p0 as [|b p0 IH]; intros q; [destruct cls; reflexivity|]. cbn [in_modules fold_right]. fold (in_modules p0 (node_of MarkFun (InImpl cls) (RiFn s first []))).
      cbn [search own visits inner_mod inner_recv]. rewrite IH. reflexivity. }
    cbn [in_modules fold_right]. fold (in_modules p (node_of MarkFun (InImpl cls) (RiFn s first []))). cbn [search own visits inner_mod inner_recv]. rewrite G. split; [discriminate|]. left. discriminate.
Qed.
Print Assumptions c97_methods.

(** A function marked with [extern_rust_type] is accepted by the compiler, although the error for other items says that only structs and enums are expected, but is silently not exported. *)
Theorem c97_function_as_type_refuted :
  exists i, extern_rust_type true (Some i) = Some i /\ forall ws path, search ws None None (in_modules path (node_of MarkType InModule i)) no_discoveries = Ok no_discoveries.
Proof.
  exists (RiFn (Sig "f" "()") NoParam []). split; [reflexivity|]. intros ws path.
  assert (G : forall path mp, search ws mp None (in_modules path (node_of MarkType InModule (RiFn (Sig "f" "()") NoParam []))) no_discoveries = Ok no_discoveries).
  { induction path0 as [|a p IH]; intros mp; [reflexivity|]. cbn [in_modules fold_right]. fold (in_modules p (node_of MarkType InModule (RiFn (Sig "f" "()") NoParam []))).
    cbn [search own visits inner_mod inner_recv]. rewrite IH. reflexivity. }
  apply G.
Qed.
Print Assumptions c97_function_as_type_refuted.

(** A method of a trait, with a default body, marked with [extern_rust_function] is accepted by the compiler but is silently not exported; one of an [impl] of a trait is an error. *)
Theorem c97_trait_refuted :
  exists i, extern_rust_function true (Some i) = Some i
    /\ (forall ws, search ws None None (node_of MarkFun InTrait i) no_discoveries = Ok no_discoveries)
    /\ forall ws, search ws None None (node_of MarkFun (InImpl None) i) no_discoveries = Err UnclearReceiver.
Proof. exists (RiFn (Sig "f" "(&self)") (Receiver (RefT false SelfT)) []). repeat split. Qed.
Print Assumptions c97_trait_refuted.

(** What is not exported because it is no struct, enum or function is refused by the compiler, and so is every use of the attribute which bindgen's output carries. *)
Theorem c97_refused :
  (forall m no_args, compile m no_args (Some RiOther) = None /\ compile m no_args None = None)
  /\ (forall no_args i, (forall s f n, i <> RiFn s f n) -> extern_rust_function no_args (Some i) = None)
  /\ forall no_args i, cpp_semantics no_args i = None.
Proof.
  split; [intros [] []; auto|]. split; [|reflexivity]. intros [] [] N; try reflexivity. destruct (N _ _ _ eq_refl).
Qed.
Print Assumptions c97_refused.

Example c97_case :
  search (fun _ s => s) None None (in_modules ["a"; "b"] (node_of MarkType InModule (RiEnum "E"))) no_discoveries = Ok (Disc [] [] [["a"; "b"; "E"]])
  /\ search (fun _ s => s) None None (node_of MarkFun (InImpl (Some "A")) (RiFn (Sig "g" "(&self)") (Receiver (RefT false SelfT)) [])) no_discoveries
     = Ok (Disc [] [RustFun ["g"] (Sig "g" "(&self)") true] [["A"]]).
Proof. split; reflexivity. Qed.
