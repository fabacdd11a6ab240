(** C102: what [include_cpp] accepts and hands on, and what the build script reads. *)
From Verif Require Import Base ConfigModel IncludeMacroModel.
Local Open Scope list_scope.

Lemma tokens_ind (P : list tok -> Prop) : (forall ts, (forall us, List.length us < List.length ts -> P us) -> P ts) -> forall ts, P ts.
Proof.
  intros H ts. assert (K : forall n us, List.length us < n -> P us); [|apply (K (S (List.length ts))); auto].
  induction n as [|n IH]; intros us L; [inversion L|]. apply H. intros vs V. apply IH. lia.
Qed.
Lemma directives_same ts : forall o, forward_directives ts = Some o -> o = ts.
Proof.
  pattern ts. apply tokens_ind. clear ts. intros ts IH o E.
  destruct ts as [|[| | | | |m| | | |] ts]; cbn [forward_directives] in E; try discriminate; [injection E as <-; reflexivity|].
  destruct ts as [|[] ts]; try discriminate. destruct ts as [|[] ts]; try discriminate. destruct (documented m); [|discriminate].
  destruct (forward_directives ts) as [o'|] eqn:F; [|discriminate]. injection E as <-. rewrite (IH ts) with (o := o'); [reflexivity|cbn; lia|exact F].
Qed.

(** The procedural macro is given the tokens which the build script found in the file, whenever both accept them: so both read the same configuration, and the macro asks for the bindings
    which were generated. *)
Theorem c102_same : forall ts o c, include_cpp ts = Some o -> parse_config default_config ts = ROk c -> o = ts.
Proof.
  intros ts o c E P. generalize dependent o. generalize dependent c. generalize default_config. pattern ts. apply tokens_ind. clear ts. intros ts IH c0 c P o E.
  assert (D : (forall i s r, ts <> TPound :: TIdent i :: TStr s :: r) -> o = ts).
  { intros N. apply directives_same. destruct ts as [|[] [|[] [|[] ts]]]; try exact E. destruct (N s s0 ts eq_refl). }
  destruct ts as [|t ts1]; [apply D; discriminate|]. destruct t; try (apply D; discriminate).
  destruct ts1 as [|t ts1]; [apply D; discriminate|]. destruct t; try (apply D; discriminate).
  destruct ts1 as [|t ts1]; [apply D; discriminate|]. destruct t; try (apply D; discriminate).
  cbn [include_cpp] in E. destruct (documented s); [|discriminate]. destruct (include_cpp ts1) as [o'|] eqn:F; [|discriminate]. injection E as <-.
  cbn [parse_config dget need_hexathorpe] in P. destruct (String.eqb "include" s) eqn:S; [|discriminate]. apply String.eqb_eq in S. subst s. cbn [parse_directive] in P.
  assert (L : List.length ts1 < List.length (TPound :: TIdent "include" :: TStr s0 :: ts1)) by (cbn; lia). rewrite (IH ts1 L _ _ P o' F). reflexivity.
Qed.

(** A macro as documented: headers, and then directives. *)
Definition call (incs : list string) (dirs : list (string * list tok)) : list tok :=
  flat_map (fun s => [TPound; TIdent "include"; TStr s]) incs ++ flat_map (fun d => [TIdent (fst d); TBang; TGroup (snd d)]) dirs.
(** The directives which the build script knows. *)
Definition known (n : string) : Prop := exists d, dget n need_exclamation = Some d.

(** With headers first, it accepts every directive which the build script knows, with any arguments, but [parse_only] and [extern_rust_function]. *)
Theorem c102_directives : forall incs dirs, (forall n args, In (n, args) dirs -> known n /\ n <> "parse_only" /\ n <> "extern_rust_function") ->
  include_cpp (call incs dirs) = Some (call incs dirs).
Proof.
  intros incs dirs K.
  assert (D : forward_directives (flat_map (fun d => [TIdent (fst d); TBang; TGroup (snd d)]) dirs) = Some (flat_map (fun d => [TIdent (fst d); TBang; TGroup (snd d)]) dirs)).
  { induction dirs as [|[n args] dirs IH]; [reflexivity|]. cbn [flat_map app fst snd forward_directives].
    assert (Q : documented n = true).
    { destruct (K n args (or_introl eq_refl)) as ([d X] & N1 & N2). clear - X N1 N2. unfold need_exclamation in X.
      repeat (cbn [dget] in X; match type of X with (if String.eqb ?k n then _ else _) = _ => destruct (String.eqb k n) eqn:?E; [apply String.eqb_eq in E; subst n; first [reflexivity|congruence]|clear E] end).
      discriminate X. }
    rewrite Q, IH; [reflexivity|]. intros n' args' I. apply (K n' args'). right. exact I. }
  unfold call. induction incs as [|s incs IH].
  - cbn [flat_map app]. transitivity (forward_directives (flat_map (fun d => [TIdent (fst d); TBang; TGroup (snd d)]) dirs)); [|exact D]. destruct dirs as [|[n args] dirs']; reflexivity.
  - cbn [flat_map app include_cpp]. cbn [app] in IH. rewrite IH. reflexivity.
Qed.
Print Assumptions c102_same.
Print Assumptions c102_directives.

(** The macro refuses these two whatever their arguments and wherever they stand among the directives, as there are no macros of their names in the library; the build script accepts both. *)
Theorem c102_undocumented : forall incs dirs n args, In (n, args) dirs -> n = "parse_only" \/ n = "extern_rust_function" -> include_cpp (call incs dirs) = None.
Proof.
  intros incs dirs n args I N.
  assert (Q : documented n = false) by (destruct N as [-> | ->]; reflexivity).
  assert (D : forward_directives (flat_map (fun d => [TIdent (fst d); TBang; TGroup (snd d)]) dirs) = None).
  { induction dirs as [|[n' args'] dirs IH]; [destruct I|]. cbn [flat_map app fst snd forward_directives]. destruct I as [E|I].
    - injection E as -> ->. rewrite Q. reflexivity.
    - rewrite (IH I). destruct (documented n'); reflexivity. }
  unfold call. induction incs as [|s incs IH].
  - cbn [flat_map app]. transitivity (forward_directives (flat_map (fun d => [TIdent (fst d); TBang; TGroup (snd d)]) dirs)); [|exact D]. destruct dirs as [|[n' args'] dirs']; reflexivity.
  - cbn [flat_map app include_cpp]. cbn [app] in IH. rewrite IH. destruct (documented "include"); reflexivity.
Qed.
Print Assumptions c102_undocumented.
(** C102. The build script accepts a macro with [extern_rust_function] and one with [parse_only], generates code for the first, and the compiler then refuses both. The examples
    of the documentation use [parse_only] with the procedural macro itself. *)
Theorem c102_undocumented_refuted : exists t1 c1 t2 c2,
  parse_config default_config t1 = ROk c1 /\ cf_extern_rust_funs c1 <> [] /\ include_cpp t1 = None /\ parse_config default_config t2 = ROk c2 /\ cf_parse_only c2 = true /\ include_cpp t2 = None.
Proof.
  exists (call ["a.h"] [("generate", [TStr "A"]); ("extern_rust_function", [TIdent "m"; TSep; TIdent "f"; TComma; TSig (Sig "f" "()")])]). eexists.
  exists (call ["a.h"] [("parse_only", [])]). eexists. split; [vm_compute; reflexivity|]. split; [discriminate|]. split; [reflexivity|]. split; [vm_compute; reflexivity|]. split; reflexivity.
Qed.
Print Assumptions c102_undocumented_refuted.
(** C102. The build script accepts a header after a directive; the compiler refuses it. *)
Theorem c102_order_refuted : exists ts c, parse_config default_config ts = ROk c /\ include_cpp ts = None.
Proof. exists [TIdent "generate"; TBang; TGroup [TStr "A"]; TPound; TIdent "include"; TStr "a.h"]. eexists. split; [vm_compute; reflexivity|reflexivity]. Qed.
Print Assumptions c102_order_refuted.
(** C102. The compiler takes [#generate] for [#include]: the macro gets a header of which the build script knows nothing. *)
Theorem c102_hash_refuted : exists ts o c, include_cpp ts = Some o /\ parse_config default_config o = ROk c /\ cf_inclusions c = ["a.h"] /\ parse_config default_config ts = RErr EExpectedDirective.
Proof. exists [TPound; TIdent "generate"; TStr "a.h"]. eexists _, _. split; [reflexivity|]. split; [reflexivity|]. split; reflexivity. Qed.
Print Assumptions c102_hash_refuted.

Example c102_case : let t := call ["a.h"; "b.h"] [("generate", [TStr "A"]); ("safety", [TUnsafe]); ("subclass", [TStr "Base"; TComma; TIdent "Mine"])] in
  include_cpp t = Some t /\ exists c, parse_config default_config t = ROk c /\ cf_inclusions c = ["a.h"; "b.h"].
Proof. cbn zeta. split; [reflexivity|]. eexists. split; [vm_compute; reflexivity|reflexivity]. Qed.
