(** C29, C30, C31: the directives of an [include_cpp!] macro. *)

From Coq Require Import List String Bool Arith Lia Permutation.
From Verif Require Import Base ConfigModel ConfigProofs.
Import ListNotations.
Open Scope string_scope.
Open Scope list_scope.

(** ** C29: [generate_all!] excludes [generate!] and [generate_ns!] *)

(** What the text of a macro asks for, read directive by directive in order,
    without regard to what the parser does with it. *)
Inductive ask := AskAll | AskItem (s : string) | AskNamespace (s : string).

Definition ask_of (id : string) (args : list tok) : list ask :=
  match args with
  | [TStr s] =>
      if String.eqb id "generate" || String.eqb id "generate_pod" then [AskItem s]
      else if String.eqb id "generate_ns" then [AskNamespace s] else []
  | [] => if String.eqb id "generate_all" then [AskAll] else []
  | _ => []
  end.

Fixpoint asks (ts : list tok) : list ask :=
  match ts with
  | TPound :: TIdent _ :: _ :: ts' => asks ts'
  | TIdent id :: TBang :: TGroup args :: ts' => ask_of id args ++ asks ts'
  | TIdent id :: TGroup args :: ts' => ask_of id args ++ asks ts'
  | _ => []
  end.

Definition is_all (a : ask) : bool := match a with AskAll => true | _ => false end.

(** The entries asked for, in order. *)
Definition entry_of (a : ask) : list allow_entry :=
  match a with AskAll => [] | AskItem s => [AItem s] | AskNamespace s => [ANamespace s] end.
Definition entries (l : list ask) : list allow_entry := flat_map entry_of l.

(** [mixed l]: both kinds of directive are present. *)
Definition mixed (l : list ask) : Prop := In AskAll l /\ exists a, In a l /\ a <> AskAll.

(** How an allowlist stands after the asks [l], starting from [a]. *)
Definition stands (a : allowlist) (l : list ask) (a' : allowlist) : Prop :=
  match a with
  | AUnspecified k =>
      (l = [] /\ a' = a)
      \/ (l <> [] /\ Forall (fun x => x = AskAll) l /\ a' = AAll)
      \/ (l <> [] /\ ~ In AskAll l /\ a' = ASpecific (k ++ entries l))
  | AAll => Forall (fun x => x = AskAll) l /\ a' = AAll
  | ASpecific k => ~ In AskAll l /\ a' = ASpecific (k ++ entries l)
  end.

Lemma stands_nil a : stands a [] a.
Proof. destruct a; cbn; rewrite ?app_nil_r; auto. Qed.

Lemma stands_step a l a1 l' a2 : stands a l a1 -> stands a1 l' a2 -> stands a (l ++ l') a2.
Proof.
  unfold stands; destruct a as [k| |k].
  - intros [[-> ->]|[(N & F & ->)|(N & F & ->)]] H; cbn [app].
    + exact H.
    + destruct H as [F' ->]. right; left. split; [destruct l; [congruence|discriminate]|].
      split; [apply Forall_app; auto|reflexivity].
    + destruct H as [F' ->]. right; right. split; [destruct l; [congruence|discriminate]|].
      rewrite in_app_iff; split; [tauto|]. unfold entries; rewrite flat_map_app, app_assoc; reflexivity.
  - intros [F ->] [F' ->]; split; [apply Forall_app; auto|reflexivity].
  - intros [F ->] [F' ->]. rewrite in_app_iff; split; [tauto|].
    unfold entries; rewrite flat_map_app, app_assoc; reflexivity.
Qed.

Lemma dget_in n l d : dget n l = Some d -> In (n, d) l.
Proof.
  induction l as [|[k e] l IH]; cbn; [discriminate|].
  destruct (String.eqb_spec k n) as [->|]; intros H; [left; congruence|right; auto].
Qed.

Lemma directive_stands id d args c c1 :
  dget id need_exclamation = Some d -> parse_directive d args c = ROk (c1, []) ->
  stands (cf_allowlist c) (ask_of id args) (cf_allowlist c1).
Proof.
  intros D P. apply dget_in in D. unfold need_exclamation in D.
  assert (Same : forall l, l = [] -> cf_allowlist c1 = cf_allowlist c -> stands (cf_allowlist c) l (cf_allowlist c1)).
  { intros l -> ->; apply stands_nil. }
  repeat (destruct D as [D|D]; [injection D as <- <-|]); [..|destruct D]; cbn [parse_directive] in P.
  - destruct args as [|[] [|]]; try discriminate P; destruct (cf_allowlist c) eqn:A; cbn in P; try discriminate P;
      injection P as <-; cbn;
      [right; right; split; [discriminate|]|]; (split; [intros [|[]]; discriminate|reflexivity]).
  - destruct args as [|[] [|]]; try discriminate P; destruct (cf_allowlist c) eqn:A; cbn in P; try discriminate P;
      injection P as <-; cbn;
      [right; right; split; [discriminate|]|]; (split; [intros [|[]]; discriminate|reflexivity]).
  - destruct args as [|[] [|]]; try discriminate P; destruct (cf_allowlist c) eqn:A; cbn in P; try discriminate P;
      injection P as <-; cbn;
      [right; right; split; [discriminate|]|]; (split; [intros [|[]]; discriminate|reflexivity]).
  - destruct (cf_allowlist c) eqn:A; cbn in P; try discriminate P; injection P as <- ->; cbn.
    + right; left. split; [discriminate|]. split; [repeat constructor|reflexivity].
    + split; [repeat constructor|reflexivity].
  - destruct (parse_policy args) as [[p r]| |] eqn:E; try discriminate P. injection P as <- ->.
    apply Same; [|reflexivity]. destruct args as [|[] [|]]; reflexivity.
  - destruct args as [|[] [|]]; try discriminate P. injection P as <-. apply Same; reflexivity.
  - destruct args as [|[] [|]]; try discriminate P. injection P as <-. apply Same; reflexivity.
  - destruct args as [|[] [|]]; try discriminate P. injection P as <-. apply Same; reflexivity.
  - destruct args as [|[] [|]]; try discriminate P. injection P as <-. apply Same; reflexivity.
  - destruct args as [|[] [|]]; try discriminate P. injection P as <-. apply Same; reflexivity.
  - injection P as <- ->. apply Same; reflexivity.
  - injection P as <- ->. apply Same; reflexivity.
  - injection P as <- ->. apply Same; reflexivity.
  - destruct args as [|[] [|]]; try discriminate P. injection P as <-. apply Same; reflexivity.
  - destruct args as [|[] [|[] [|[] [|]]]]; try discriminate P. injection P as <-. apply Same; reflexivity.
  - destruct args as [|[] [|]]; try discriminate P. injection P as <-. apply Same; reflexivity.
  - destruct args as [|[] [|]]; try discriminate P. injection P as <-. apply Same; reflexivity.
  - destruct args as [|[] [|[] [|[] [|]]]]; try discriminate P. injection P as <-. apply Same; reflexivity.
  - destruct (parse_path args) as [[p r]| |] eqn:E; try discriminate P. destruct r as [|[] [|[] [|]]]; try discriminate P.
    injection P as <-. apply Same; [|reflexivity]. destruct args as [|[] [|]]; reflexivity.
  - destruct args as [|[] [|[] [|[] [|]]]]; try discriminate P. injection P as <-. apply Same; reflexivity.
  - destruct args as [|[] [|[] [|[] [|]]]]; try discriminate P. injection P as <-. apply Same; reflexivity.
Qed.

Lemma run_stands c ts c' : run c ts c' -> stands (cf_allowlist c) (asks ts) (cf_allowlist c').
Proof.
  induction 1 as [c|c id d t c1 ts c2 D P R IH|c id d args c1 ts c2 D P R IH|c id d args c1 ts c2 D P R IH].
  - apply stands_nil.
  - cbn [asks]. cbn [need_hexathorpe dget] in D. destruct (String.eqb "include" id); [|discriminate D].
    injection D as <-. cbn [parse_directive] in P. destruct t; try discriminate P. injection P as <-. exact IH.
  - cbn [asks]. eapply stands_step; [eapply directive_stands; eassumption|exact IH].
  - cbn [asks]. eapply stands_step; [eapply directive_stands; eassumption|exact IH].
Qed.

(** The allowlist of every accepted macro is what its directives ask for: all
    names if there is only [generate_all!] (once or more), otherwise every
    item and namespace in the order of the text. *)
Theorem c29_allowlist_is_what_was_asked :
  forall ts c, parse_config default_config ts = ROk c ->
  cf_allowlist c =
    match asks ts with
    | [] => AUnspecified []
    | l => if existsb is_all l then AAll else ASpecific (entries l)
    end.
Proof.
  intros ts c H. apply parse_run, run_stands in H. cbn [default_config cf_allowlist] in H.
  destruct H as [[-> ->]|[(N & F & ->)|(N & F & ->)]]; [reflexivity| |].
  - destruct (asks ts) as [|a l]; [congruence|]. apply Forall_inv in F as ->. reflexivity.
  - destruct (asks ts) as [|a l] eqn:E; [congruence|]. rewrite <- E in *.
    destruct (existsb is_all (asks ts)) eqn:X; [|cbv zeta; rewrite ?X; reflexivity].
    apply existsb_exists in X as (x & I & X). destruct x; try discriminate. contradiction.
Qed.
Print Assumptions c29_allowlist_is_what_was_asked.

(** No macro which mixes the two kinds of directives is accepted, whatever
    else is in it and in whichever order they come. *)
Theorem c29_mixing_refused :
  forall ts c, mixed (asks ts) -> parse_config default_config ts <> ROk c.
Proof.
  intros ts c [A (a & I & N)] H. apply parse_run, run_stands in H. cbn [default_config cf_allowlist] in H.
  destruct H as [[E _]|[(_ & F & _)|(_ & F & _)]].
  - rewrite E in A; destruct A.
  - rewrite Forall_forall in F. apply N, F, I.
  - contradiction.
Qed.
Print Assumptions c29_mixing_refused.

(** A macro with nothing but allowlist directives: refused with the conflict
    error exactly if it mixes them, accepted otherwise. *)
Definition spell (a : ask) : list tok :=
  match a with
  | AskAll => [TIdent "generate_all"; TBang; TGroup []]
  | AskItem s => [TIdent "generate"; TBang; TGroup [TStr s]]
  | AskNamespace s => [TIdent "generate_ns"; TBang; TGroup [TStr s]]
  end.

Lemma parse_spelled_all l : forall c, cf_allowlist c = AAll ->
  (exists a, In a l /\ a <> AskAll) -> parse_config c (flat_map spell l) = RErr EConflict.
Proof.
  induction l as [|x l IH]; intros c A (a & I & N); [destruct I|].
  destruct x; cbn; rewrite A; try reflexivity. cbn. apply IH; [reflexivity|].
  destruct I as [<-|I]; [congruence|eauto].
Qed.

Lemma parse_spelled_specific l : forall c k, cf_allowlist c = ASpecific k ->
  In AskAll l -> parse_config c (flat_map spell l) = RErr EConflict.
Proof.
  induction l as [|x l IH]; intros c k A I; [destruct I|].
  destruct x; cbn; rewrite A; try reflexivity; cbn; (eapply IH; [reflexivity|]);
    destruct I as [E|I]; [discriminate|exact I|discriminate|exact I].
Qed.

Lemma parse_spelled_same l : forall c, cf_allowlist c <> AAll -> ~ In AskAll l ->
  exists c', parse_config c (flat_map spell l) = ROk c'.
Proof.
  induction l as [|x l IH]; intros c A I; [eexists; reflexivity|].
  destruct x; [exfalso; apply I; left; reflexivity| |];
    (cbn; destruct (cf_allowlist c); [|congruence|]; cbn; apply IH; try discriminate;
     intros J; apply I; right; exact J).
Qed.

Lemma parse_spelled_alls l : forall c, (forall k, cf_allowlist c <> ASpecific k) -> Forall (fun x => x = AskAll) l ->
  exists c', parse_config c (flat_map spell l) = ROk c'.
Proof.
  induction l as [|x l IH]; intros c A F; [eexists; reflexivity|].
  apply Forall_cons_iff in F as [-> F]. cbn. destruct (cf_allowlist c); [| |exfalso; eapply A; reflexivity];
    (cbn; apply IH; [discriminate|exact F]).
Qed.

Theorem c29_conflict_exactly_when_mixed :
  forall l,
    (mixed l -> parse_config default_config (flat_map spell l) = RErr EConflict)
    /\ (~ mixed l -> exists c, parse_config default_config (flat_map spell l) = ROk c
                               /\ asks (flat_map spell l) = l).
Proof.
  assert (S : forall l, asks (flat_map spell l) = l).
  { induction l as [|x l IH]; [reflexivity|]. destruct x; cbn; rewrite IH; reflexivity. }
  intros l; split.
  - intros [A (a & I & N)]. destruct l as [|x l]; [destruct A|]. destruct x.
    + cbn. apply parse_spelled_all; [reflexivity|]. destruct I as [<-|I]; [congruence|eauto].
    + cbn. eapply parse_spelled_specific; [reflexivity|]. destruct A as [A|A]; [discriminate|exact A].
    + cbn. eapply parse_spelled_specific; [reflexivity|]. destruct A as [A|A]; [discriminate|exact A].
  - intros N.
    assert (X : In AskAll l \/ ~ In AskAll l).
    { destruct (existsb is_all l) eqn:E.
      - apply existsb_exists in E as (x & I & E); destruct x; try discriminate; auto.
      - right; intros I. assert (existsb is_all l = true) by (apply existsb_exists; exists AskAll; auto). congruence. }
    destruct X as [X|X].
    + destruct (parse_spelled_alls l default_config) as [c E]; [discriminate| |exists c; auto].
      apply Forall_forall. intros a I. destruct a; [reflexivity| |]; exfalso; apply N; split; auto;
        eexists; (split; [exact I|discriminate]).
    + destruct (parse_spelled_same l default_config) as [c E]; [discriminate|exact X|exists c; auto].
Qed.
Print Assumptions c29_conflict_exactly_when_mixed.

Example c29_case :
  parse_config default_config
    [TPound; TIdent "include"; TStr "a.h"; TIdent "generate"; TBang; TGroup [TStr "A"];
     TIdent "safety"; TBang; TGroup [TUnsafe]; TIdent "generate_ns"; TGroup [TStr "n"];
     TIdent "generate_pod"; TBang; TGroup [TStr "B"]]
  = ROk (Config ["a.h"] AllFunctionsSafe false false ["B"] (ASpecific [AItem "A"; ANamespace "n"; AItem "B"])
           [] [] [] false None [] [] [] [] [] [])
  /\ parse_config default_config [TIdent "generate_ns"; TGroup [TStr "n"]; TIdent "generate_all"; TGroup []] = RErr EConflict.
Proof. split; reflexivity. Qed.

(** ** C30: which names are on the allowlist *)

(** A name lies inside a namespace if it is qualified by it. *)
Definition inside (ns n : string) : Prop := exists rest, n = ns +++ "::" +++ rest.

(** The names which belong to helpers the user asked for. *)
Inductive helper (hash : config -> string) (c : config) (n : string) : Prop :=
| H_utility : cf_exclude_utilities c = false -> n = "autocxx_make_string_" +++ hash c -> helper hash c n
| H_subclass s : In s (cf_subclasses c) ->
    In n [sc_subclass s; sc_superclass s; sc_subclass s +++ "Holder"; sc_subclass s +++ "Cpp"] -> helper hash c n
| H_fun f : In f (cf_extern_rust_funs c) -> sig_ident (rf_sig f) = n -> helper hash c n
| H_type p : In p (cf_rust_types c) -> (exists q, p = q ++ [n]) -> helper hash c n
| H_concrete k : In (k, n) (cf_concretes c) -> helper hash c n.

Definition helperb hash c n :=
  existsb (fun i => String.eqb i n) (active_utilities hash c)
     || is_subclass_or_superclass c n || is_subclass_holder c n || is_subclass_cpp c n
     || is_rust_fun c n || is_rust_type_name c n || is_concrete_type c n.

Lemma helperb_spec hash c n : helperb hash c n = true <-> helper hash c n.
Proof.
  unfold helperb. rewrite !orb_true_iff. split.
  - intros [[[[[[H|H]|H]|H]|H]|H]|H].
    + unfold active_utilities in H. destruct (cf_exclude_utilities c) eqn:E; cbn [existsb] in H; [discriminate|].
      rewrite orb_false_r in H. apply String.eqb_eq in H. apply H_utility; [exact E|symmetry; exact H].
    + unfold is_subclass_or_superclass in H. apply existsb_exists in H as (x & I & H). apply String.eqb_eq in H; subst x.
      apply in_flat_map in I as (s & I & J). eapply H_subclass; [exact I|]. cbn in J |- *; tauto.
    + apply existsb_exists in H as (s & I & H). apply String.eqb_eq in H. eapply H_subclass; [exact I|]. cbn; tauto.
    + apply existsb_exists in H as (s & I & H). apply String.eqb_eq in H. eapply H_subclass; [exact I|]. cbn; tauto.
    + apply existsb_exists in H as (s & I & H). apply String.eqb_eq in H. eapply H_fun; eauto.
    + apply existsb_exists in H as (p & I & H). eapply H_type; [exact I|].
      destruct (rev p) as [|id q] eqn:R; [discriminate|]. apply String.eqb_eq in H; subst id.
      exists (rev q). rewrite <- (rev_involutive p), R. reflexivity.
    + apply existsb_exists in H as ([k v] & I & H). apply String.eqb_eq in H. cbn in H; subst v. eapply H_concrete; eauto.
  - intros [E ->|s I J|f I <-|p I [q ->]|k I].
    + do 6 left. unfold active_utilities; rewrite E; cbn [existsb]. rewrite orb_false_r. apply String.eqb_eq; reflexivity.
    + destruct J as [J|[J|[J|[J|[]]]]].
      * do 5 left; right. apply existsb_exists; exists n; split; [|apply String.eqb_refl].
        apply in_flat_map; exists s; split; [exact I|cbn; tauto].
      * do 5 left; right. apply existsb_exists; exists n; split; [|apply String.eqb_refl].
        apply in_flat_map; exists s; split; [exact I|cbn; tauto].
      * do 4 left; right. apply existsb_exists; exists s; split; [exact I|apply String.eqb_eq; exact J].
      * do 3 left; right. apply existsb_exists; exists s; split; [exact I|apply String.eqb_eq; exact J].
    + do 2 left; right. apply existsb_exists; exists f; split; [exact I|apply String.eqb_refl].
    + left; right. apply existsb_exists; eexists; split; [exact I|]. rewrite rev_app_distr; cbn. apply String.eqb_refl.
    + right. apply existsb_exists; eexists; split; [exact I|]. apply String.eqb_refl.
Qed.

(** Everything named by a directive or inside a named namespace is on the
    allowlist. *)
Theorem c30_named_is_listed :
  forall hash c n,
    (forall l, cf_allowlist c <> AUnspecified l) ->
    helper hash c n
    \/ cf_allowlist c = AAll
    \/ (exists l, cf_allowlist c = ASpecific l
                  /\ (In (AItem n) l \/ exists ns, In (ANamespace ns) l /\ inside ns n)) ->
    is_on_allowlist hash c n = ROk true.
Proof.
  intros hash c n N H. unfold is_on_allowlist. fold (helperb hash c n).
  destruct (helperb hash c n) eqn:E; [reflexivity|].
  destruct H as [H|[H|(l & H & J)]].
  - apply helperb_spec in H; congruence.
  - rewrite H; reflexivity.
  - rewrite H. f_equal. apply existsb_exists. destruct J as [J|(ns & J & rest & ->)].
    + eexists; split; [exact J|]. apply String.eqb_refl.
    + eexists; split; [exact J|]. apply starts_with_spec. eexists; reflexivity.
Qed.
Print Assumptions c30_named_is_listed.

(** Nothing else is, except that any name which merely starts with the text of
    a namespace counts as inside it. What is missing for the full claim:
    [inside ns n] in place of the textual prefix (see
    [c30_namespace_prefix_refuted]). *)
Theorem c30_only_named_partial :
  forall hash c n,
    is_on_allowlist hash c n = ROk true ->
    helper hash c n
    \/ cf_allowlist c = AAll
    \/ (exists l, cf_allowlist c = ASpecific l
                  /\ (In (AItem n) l \/ exists ns rest, In (ANamespace ns) l /\ n = ns +++ rest)).
Proof.
  intros hash c n. unfold is_on_allowlist. fold (helperb hash c n).
  destruct (helperb hash c n) eqn:E; [left; apply helperb_spec; exact E|].
  destruct (cf_allowlist c) as [l| |l]; intros H; [discriminate|auto|].
  right; right; exists l; split; [reflexivity|]. injection H as H.
  apply existsb_exists in H as (e & I & H). destruct e as [i|ns].
  - apply String.eqb_eq in H; subst; auto.
  - apply starts_with_spec in H as [r ->]. right; eauto.
Qed.
Print Assumptions c30_only_named_partial.

(** With namespaces whose names are not a proper prefix of anything outside
    them, the allowlist is exactly what was asked for. *)
Theorem c30_exact_without_namespaces :
  forall hash c n l,
    cf_allowlist c = ASpecific l ->
    (forall ns rest, In (ANamespace ns) l -> n = ns +++ rest -> inside ns n) ->
    (is_on_allowlist hash c n = ROk true
     <-> helper hash c n \/ In (AItem n) l \/ exists ns, In (ANamespace ns) l /\ inside ns n).
Proof.
  intros hash c n l A S; split.
  - intros H. apply c30_only_named_partial in H as [H|[H|(l' & H & J)]]; [auto|congruence|].
    rewrite A in H; injection H as <-. right. destruct J as [J|(ns & rest & I & ->)]; [auto|].
    right; exists ns; split; [exact I|eapply S; eauto].
  - intros H. apply c30_named_is_listed; [rewrite A; discriminate|]. destruct H as [H|H]; [auto|].
    right; right; exists l; auto.
Qed.
Print Assumptions c30_exact_without_namespaces.

(** [generate_ns!("foo")] also allowlists [foobar::X], a class of another
    namespace, and [foo_init], a function of none. *)
Theorem c30_namespace_prefix_refuted :
  exists ts c,
    parse_config default_config ts = ROk c /\ cf_allowlist c = ASpecific [ANamespace "foo"] /\
    forall hash n, n = "foobar::X" \/ n = "foo_init" ->
      is_on_allowlist hash c n = ROk true /\ ~ inside "foo" n /\ ~ helper hash c n.
Proof.
  exists [TIdent "generate_ns"; TBang; TGroup [TStr "foo"]]. eexists; split; [reflexivity|]. split; [reflexivity|].
  intros hash n N. repeat split.
  - unfold is_on_allowlist.
    match goal with |- (if ?b then _ else _) = _ => destruct b; [reflexivity|] end.
    destruct N as [->| ->]; vm_compute; reflexivity.
  - destruct N as [->| ->]; intros [r H]; discriminate H.
  - intros [E H|s []|f []|p []|k []]. destruct N as [->| ->]; discriminate H.
Qed.
Print Assumptions c30_namespace_prefix_refuted.

(** Once the macro is complete the decision never panics. *)
Theorem c30_no_panic :
  forall hash ts c n, parse_config default_config ts = ROk c ->
    exists b, is_on_allowlist hash (confirm_complete c) n = ROk b.
Proof.
  intros hash ts c n _. unfold is_on_allowlist. destruct (_ || _); [eexists; reflexivity|].
  unfold confirm_complete. destruct (cf_allowlist c) eqn:A; cbn; rewrite ?A; eexists; reflexivity.
Qed.
Print Assumptions c30_no_panic.

(** Every entry handed to bindgen as an exact name, other than a [pod!]
    request, is also on the allowlist of the second pass. *)
Theorem c30_bindgen_names_listed :
  forall hash c items l n,
    bindgen_allowlist hash c = ROk (Some items) -> cf_allowlist c = ASpecific l -> In n items ->
    (forall ns, In (ANamespace ns) l -> n <> ns +++ "::.*") ->
    ~ In n (cf_pod_requests c) -> is_on_allowlist hash c n = ROk true.
Proof.
  intros hash c its l n B A I NS NP. apply c30_named_is_listed; [rewrite A; discriminate|].
  unfold bindgen_allowlist in B. rewrite A in B. injection B as <-.
  rewrite !in_app_iff in I. destruct I as [I|[I|[I|I]]].
  - right; right; exists l; split; [exact A|]. apply in_map_iff in I as (e & <- & I). destruct e as [i|ns]; [auto|].
    exfalso; eapply NS; [exact I|reflexivity].
  - contradiction.
  - left. unfold active_utilities in I. destruct (cf_exclude_utilities c) eqn:E; [destruct I|].
    destruct I as [<-|[]]. apply H_utility; [exact E|reflexivity].
  - left. apply in_flat_map in I as (s & I & J). eapply H_subclass; [exact I|]. cbn in J |- *; tauto.
Qed.
Print Assumptions c30_bindgen_names_listed.

(** [pod!] on its own hands the name to bindgen and demands that it be
    generated, yet does not put it on the allowlist. *)
Theorem c30_pod_alone_not_listed :
  exists ts c, parse_config default_config ts = ROk c
    /\ must_generate_list (confirm_complete c) = ["X"]
    /\ forall hash, exists items, bindgen_allowlist hash (confirm_complete c) = ROk (Some items) /\ In "X" items
                    /\ is_on_allowlist hash (confirm_complete c) "X" = ROk false.
Proof.
  exists [TIdent "pod"; TBang; TGroup [TStr "X"]]. eexists; split; [reflexivity|]. split; [reflexivity|].
  intros hash. eexists; split; [reflexivity|]. split; [left; reflexivity|].
  unfold is_on_allowlist, active_utilities; cbn. reflexivity.
Qed.
Print Assumptions c30_pod_alone_not_listed.

Example c30_case :
  let c := Config [] AllFunctionsUnsafe false false [] (ASpecific [AItem "a::F"; ANamespace "ns"]) [] [] [] true None
             [] [SubC "Obs" "MyObs"] [] [("std::vector<A>", "VecA")] [] [] in
  let h := fun _ => "0x1" in
  map (is_on_allowlist h c) ["a::F"; "ns::b::C"; "a::G"; "Obs"; "MyObs"; "MyObsCpp"; "MyObsHolder"; "VecA"; "F"]
  = [ROk true; ROk true; ROk false; ROk true; ROk true; ROk true; ROk true; ROk true; ROk false].
Proof. vm_compute; reflexivity. Qed.

(** ** C31: printing and parsing again *)

(** Looking up an extern C++ type. *)
Fixpoint mget {V} (k : string) (m : list (string * V)) : option V :=
  match m with
  | [] => None
  | (k', v) :: m' => if String.eqb k' k then Some v else mget k m'
  end.

(** Two allowlists which ask for the same things: the items in the same order
    and the namespaces in the same order. *)
Definition same_allow (a b : allowlist) : Prop :=
  match a, b with
  | AAll, AAll => True
  | ASpecific l, ASpecific m =>
      (forall s, In (AItem s) l <-> In (AItem s) m) /\ (forall s, In (ANamespace s) l <-> In (ANamespace s) m)
      /\ flat_map (fun e => match e with AItem s => [s] | _ => [] end) l
         = flat_map (fun e => match e with AItem s => [s] | _ => [] end) m
      /\ Permutation l m
  | _, _ => False
  end.

Record same_config (c d : config) : Prop := {
  sm_inclusions : cf_inclusions c = cf_inclusions d;
  sm_policy : cf_policy c = cf_policy d;
  sm_parse_only : cf_parse_only c = cf_parse_only d;
  sm_exclude_impls : cf_exclude_impls c = cf_exclude_impls d;
  sm_pod_requests : cf_pod_requests c = cf_pod_requests d;
  sm_allowlist : same_allow (cf_allowlist c) (cf_allowlist d);
  sm_blocklist : cf_blocklist c = cf_blocklist d;
  sm_constructor_blocklist : cf_constructor_blocklist c = cf_constructor_blocklist d;
  sm_instantiable : cf_instantiable c = cf_instantiable d;
  sm_exclude_utilities : cf_exclude_utilities c = cf_exclude_utilities d;
  sm_mod_name : cf_mod_name c = cf_mod_name d;
  sm_rust_types : cf_rust_types c = cf_rust_types d;
  sm_subclasses : cf_subclasses c = cf_subclasses d;
  sm_extern_rust_funs : cf_extern_rust_funs c = cf_extern_rust_funs d;
  sm_concretes : cf_concretes c = cf_concretes d;
  sm_externs : forall k, mget k (cf_externs c) = mget k (cf_externs d);
  sm_opaquelist : cf_opaquelist c = cf_opaquelist d }.

Lemma mget_app {V} k (a b : list (string * V)) :
  mget k (a ++ b) = match mget k a with Some v => Some v | None => mget k b end.
Proof. induction a as [|[x v] a IH]; cbn; [reflexivity|]. destruct (String.eqb x k); auto. Qed.

Lemma mget_none {V} k (m : list (string * V)) : ~ In k (map fst m) -> mget k m = None.
Proof.
  induction m as [|[x v] m IH]; cbn; intros N; [reflexivity|].
  destruct (String.eqb_spec x k); [exfalso; auto|auto].
Qed.

Lemma mget_split k m : NoDup (map fst m) -> mget k (with_opaque false m ++ with_opaque true m) = mget k m.
Proof.
  induction m as [|[x [p o]] m IH]; intros N; [reflexivity|]. cbn [map fst] in N. apply NoDup_cons_iff in N as [N1 N2].
  assert (Z : x = k -> mget k (with_opaque false m) = None).
  { intros ->. apply mget_none. intros I; apply N1. unfold with_opaque in I. apply in_map_iff in I as (y & E & I).
    apply filter_In in I as [I _]. rewrite <- E; apply in_map; exact I. }
  specialize (IH N2). rewrite mget_app in *. unfold with_opaque in *; cbn. destruct o; cbn.
  - destruct (String.eqb_spec x k) as [E|E]; [rewrite (Z E); reflexivity|exact IH].
  - destruct (String.eqb_spec x k); [reflexivity|exact IH].
Qed.

Lemma split_items l : flat_map (fun e => match e with AItem s => [s] | _ => [] end)
    (map AItem (items l) ++ map ANamespace (namespaces l)) = items l.
Proof.
  rewrite flat_map_app. assert (A : forall x, flat_map (fun e => match e with AItem s => [s] | _ => [] end) (map AItem x) = x).
  { induction x; cbn; congruence. }
  assert (B : forall x, flat_map (fun e => match e with AItem s => [s] | _ => [] end) (map ANamespace x) = @nil string).
  { induction x; cbn; congruence. }
  rewrite A, B. apply app_nil_r.
Qed.

Lemma split_perm l : Permutation l (map AItem (items l) ++ map ANamespace (namespaces l)).
Proof.
  induction l as [|[s|s] l IH]; cbn; [constructor|constructor; exact IH|].
  apply Permutation_cons_app; exact IH.
Qed.

Lemma same_allow_split l : same_allow (ASpecific l) (ASpecific (map AItem (items l) ++ map ANamespace (namespaces l))).
Proof.
  cbn. pose proof (split_perm l) as P. repeat split.
  - apply Permutation_in; exact P.
  - apply Permutation_in; symmetry; exact P.
  - apply Permutation_in; exact P.
  - apply Permutation_in; symmetry; exact P.
  - symmetry; apply split_items.
  - exact P.
Qed.

Lemma reread_same c : printable c -> same_config c (confirm_complete (reread c)).
Proof.
  intros [PA PC PE PT PF].
  assert (A : same_allow (cf_allowlist c) (cf_allowlist (confirm_complete (reread c)))).
  { destruct (cf_allowlist c) as [l| |l] eqn:E; [exfalso; exact (PA l eq_refl)| |].
    - unfold confirm_complete, reread; cbn. rewrite E; cbn. exact I.
    - pose proof (same_allow_split l) as S. unfold confirm_complete, reread; cbn. rewrite E; cbn.
      destruct (items l) as [|i li] eqn:X, (namespaces l) as [|m ln] eqn:Y; cbn; exact S. }
  assert (E : forall k, mget k (cf_externs c) = mget k (cf_externs (confirm_complete (reread c)))).
  { intros k. rewrite <- (mget_split k (cf_externs c) PE). unfold confirm_complete, reread; cbn.
    destruct (reread_allow (cf_allowlist c)); reflexivity. }
  constructor; try exact A; try exact E; unfold confirm_complete, reread; cbn;
    destruct (reread_allow (cf_allowlist c)); reflexivity.
Qed.

(** Any macro which is accepted can be printed, the printed directives are
    accepted, and they mean the same. *)
Theorem c31_round_trip :
  forall ts c, parse_config default_config ts = ROk c ->
    exists ts' c', to_tokens (confirm_complete c) = ROk ts'
      /\ parse_config default_config ts' = ROk c'
      /\ same_config (confirm_complete c) (confirm_complete c').
Proof.
  intros ts c H. apply parsed_config, parsed_printable in H. destruct (round_trip _ H) as (ts' & T & P).
  exists ts', (reread (confirm_complete c)). split; [exact T|]. split; [exact P|]. apply reread_same; exact H.
Qed.
Print Assumptions c31_round_trip.

(** Printing the configuration read back gives the same tokens again. *)
Theorem c31_print_stable :
  forall ts c ts' c', parse_config default_config ts = ROk c ->
    to_tokens (confirm_complete c) = ROk ts' -> parse_config default_config ts' = ROk c' ->
    to_tokens (confirm_complete c') = ROk ts'.
Proof.
  intros ts c ts' c' H T P. apply parsed_config, parsed_printable in H. pose proof H as HP.
  destruct (round_trip _ H) as (ts1 & T1 & P1). rewrite T in T1; injection T1 as <-.
  rewrite P in P1; injection P1 as ->. rewrite <- T.
  destruct H as [PA _ PE _ _]. set (k := confirm_complete c) in *.
  assert (A : forall l, cf_allowlist (confirm_complete (reread k)) <> AUnspecified l).
  { intros l. unfold confirm_complete. destruct (cf_allowlist (reread k)) eqn:E; [discriminate|congruence|congruence]. }
  rewrite !to_tokens_out by assumption. f_equal.
  assert (O : forall d, out d (confirm_complete (reread k)) = out d k).
  { pose proof (reread_same k HP) as S. destruct S as [S1 S2 S3 S4 S5 S6 S7 S8 S9 S10 S11 S12 S13 S14 S15 S16 S17].
    assert (I : forall l m, cf_allowlist k = ASpecific l -> cf_allowlist (confirm_complete (reread k)) = ASpecific m ->
                  items m = items l /\ namespaces m = namespaces l).
    { intros l m E1 E2. unfold confirm_complete, reread in E2; cbn in E2. rewrite E1 in E2. cbn in E2.
      pose proof (split_items l) as SI.
      assert (SN : namespaces (map AItem (items l) ++ map ANamespace (namespaces l)) = namespaces l).
      { unfold namespaces at 1. rewrite flat_map_app.
        assert (X1 : forall x, flat_map (fun e => match e with ANamespace s => [s] | _ => [] end) (map AItem x) = @nil string)
          by (induction x; cbn; congruence).
        assert (X2 : forall x, flat_map (fun e => match e with ANamespace s => [s] | _ => [] end) (map ANamespace x) = x)
          by (induction x; cbn; congruence).
        rewrite X1, X2; reflexivity. }
      destruct (items l) as [|i li], (namespaces l) as [|n ln]; cbn in E2; injection E2 as <-; split;
        first [exact SI|exact SN|reflexivity]. }
    intros d. unfold out. destruct d; cbn [output]; rewrite <- ?S1, <- ?S2, <- ?S11, <- ?S12, <- ?S13, <- ?S14, <- ?S15; try reflexivity.
    - destruct (cf_allowlist k) as [l| |l] eqn:E1; [exfalso; exact (PA l eq_refl)| |];
        destruct (cf_allowlist (confirm_complete (reread k))) as [m| |m] eqn:E2; try destruct S6; try reflexivity.
      destruct (I l m eq_refl eq_refl) as [-> _]; reflexivity.
    - destruct (cf_allowlist k) as [l| |l] eqn:E1; [exfalso; exact (PA l eq_refl)| |];
        destruct (cf_allowlist (confirm_complete (reread k))) as [m| |m] eqn:E2; try destruct S6; try reflexivity.
      destruct (I l m eq_refl eq_refl) as [_ ->]; reflexivity.
    - destruct (cf_allowlist k) as [l| |l] eqn:E1; [exfalso; exact (PA l eq_refl)| |];
        destruct (cf_allowlist (confirm_complete (reread k))) as [m| |m] eqn:E2; try destruct S6; reflexivity.
    - destruct f; cbn [get_list get_flag]; rewrite <- ?S3, <- ?S4, <- ?S5, <- ?S7, <- ?S8, <- ?S9, <- ?S10, <- ?S17; reflexivity.
    - destruct f; cbn [get_list get_flag]; rewrite <- ?S3, <- ?S4, <- ?S5, <- ?S7, <- ?S8, <- ?S9, <- ?S10, <- ?S17; reflexivity.
    - assert (X : cf_externs (confirm_complete (reread k)) = with_opaque false (cf_externs k) ++ with_opaque true (cf_externs k)).
      { unfold confirm_complete, reread; cbn. destruct (reread_allow (cf_allowlist k)); reflexivity. }
      rewrite X, !filter_flat. f_equal. clear. unfold with_opaque. rewrite filter_app.
      assert (G : forall a b m, filter (fun kv : string * extern_cpp_type => Bool.eqb (et_opaque (snd kv)) a)
                 (filter (fun kv : string * extern_cpp_type => Bool.eqb (et_opaque (snd kv)) b) m)
               = if Bool.eqb a b then filter (fun kv : string * extern_cpp_type => Bool.eqb (et_opaque (snd kv)) a) m else []).
      { intros a b m. induction m as [|[x [q o]] m IH]; [destruct a, b; reflexivity|].
        cbn. destruct o, a, b; cbn in *; rewrite ?IH; reflexivity. }
      rewrite !G. destruct opaque; cbn; rewrite ?app_nil_r; reflexivity. }
  rewrite O. f_equal. clear - O. induction need_exclamation as [|[n d] l IH]; [reflexivity|]. cbn. rewrite O, IH; reflexivity.
Qed.
Print Assumptions c31_print_stable.

(** Configurations which mean the same lead to the same decisions. The name
    of the string utility contains a hash of the configuration and is left
    out. *)
Theorem c31_same_decisions :
  forall hash c d n, same_config c d ->
    n <> "autocxx_make_string_" +++ hash c -> n <> "autocxx_make_string_" +++ hash d ->
    is_on_allowlist hash c n = is_on_allowlist hash d n
    /\ must_generate_list c = must_generate_list d
    /\ is_on_blocklist c n = is_on_blocklist d n
    /\ is_on_constructor_blocklist c n = is_on_constructor_blocklist d n
    /\ is_rust_type c n = is_rust_type d n
    /\ get_rs_filename c = get_rs_filename d
    /\ get_mod_name c = get_mod_name d.
Proof.
  intros hash c d n [S1 S2 S3 S4 S5 S6 S7 S8 S9 S10 S11 S12 S13 S14 S15 S16 S17] Nc Nd.
  assert (H : helperb hash c n = helperb hash d n).
  { unfold helperb, is_subclass_or_superclass, is_subclass_holder, is_subclass_cpp, is_rust_fun, is_rust_type_name, is_concrete_type.
    rewrite S12, S13, S14, S15. do 6 f_equal. unfold active_utilities. rewrite S10.
    destruct (cf_exclude_utilities d); [reflexivity|]. cbn [existsb]. rewrite !orb_false_r.
    transitivity false; [|symmetry]; apply String.eqb_neq; unfold get_makestring_name; cbn in *; congruence. }
  repeat split.
  - unfold is_on_allowlist. fold (helperb hash c n) (helperb hash d n). rewrite H.
    destruct (helperb hash d n); [reflexivity|].
    destruct (cf_allowlist c) as [l| |l], (cf_allowlist d) as [m| |m]; try destruct S6; [reflexivity|].
    f_equal. destruct H1 as (N & _). apply eq_true_iff_eq. rewrite !existsb_exists. split; intros (e & I & E); exists e.
    + split; [destruct e; [apply H0|apply N]; exact I|exact E].
    + split; [destruct e; [apply H0|apply N]; exact I|exact E].
  - unfold must_generate_list. rewrite S5.
    destruct (cf_allowlist c) as [l| |l], (cf_allowlist d) as [m| |m]; try destruct S6; [reflexivity|].
    destruct H1 as (_ & E & _). unfold items. f_equal. exact E.
  - unfold is_on_blocklist; rewrite S7; reflexivity.
  - unfold is_on_constructor_blocklist; rewrite S8; reflexivity.
  - unfold is_rust_type, is_rust_type_name, is_subclass_holder; rewrite S12, S13; reflexivity.
  - unfold get_rs_filename; rewrite S11; reflexivity.
  - unfold get_mod_name; rewrite S11; reflexivity.
Qed.
Print Assumptions c31_same_decisions.

(** A Rust type discovered in a module, whose path has two segments, is
    printed as [extern_rust_type!(m::T)], which is refused: the directive
    reads a single identifier. *)
Theorem c31_rust_type_path_refuted :
  exists c ts, (forall l, cf_allowlist c <> AUnspecified l) /\ to_tokens c = ROk ts
    /\ parse_config default_config ts = RErr EUnexpectedInput
    /\ c = set_rust_types (vpush ["m"; "T"]) (confirm_complete default_config).
Proof.
  eexists; eexists; split; [|split; [|split; [|reflexivity]]]; [discriminate|reflexivity|reflexivity].
Qed.
Print Assumptions c31_rust_type_path_refuted.

(** A discovered Rust method loses its receiver: it comes back as a free
    function. *)
Theorem c31_receiver_refuted :
  exists f c ts c', rf_has_receiver f = true
    /\ c = set_extern_rust_funs (vpush f) (confirm_complete default_config)
    /\ to_tokens c = ROk ts /\ parse_config default_config ts = ROk c'
    /\ map rf_has_receiver (cf_extern_rust_funs c') = [false].
Proof.
  exists (RustFun ["T"; "go"] (Sig "go" "(&self)") true). eexists; eexists; eexists.
  split; [reflexivity|]. split; [reflexivity|]. split; [reflexivity|]. split; reflexivity.
Qed.
Print Assumptions c31_receiver_refuted.

(** Same meaning is not the same value: items are printed before namespaces
    and extern types before opaque ones, so that a hash of the configuration,
    which names the generated string utility, may change. *)
Theorem c31_order_refuted :
  exists ts c ts' c', parse_config default_config ts = ROk c /\ to_tokens c = ROk ts'
    /\ parse_config default_config ts' = ROk c' /\ c' <> c /\ same_config c c'.
Proof.
  exists [TIdent "generate_ns"; TBang; TGroup [TStr "n"]; TIdent "generate"; TBang; TGroup [TStr "A"]].
  eexists; eexists; eexists. split; [reflexivity|]. split; [reflexivity|]. split; [reflexivity|]. split; [discriminate|].
  constructor; try reflexivity. cbn. repeat split; try reflexivity; try (intros; intuition congruence).
  apply perm_swap.
Qed.
Print Assumptions c31_order_refuted.

Example c31_case :
  exists c ts c',
    c = Config ["a.h"; "b.h"] ReferencesWrappedAllFunctionsSafe true false ["P"]
           (ASpecific [ANamespace "n"; AItem "A"; AItem "P"]) ["B"] ["K"] ["I"] true (Some "ffi2")
           [["R"]] [SubC "Obs" "MyObs"] [RustFun ["a"; "f"] (Sig "f" "()") false] [("v<A>", "VA")]
           [("O", ExtTy "o::O" true); ("E", ExtTy "e::E" false)] ["Q"]
    /\ to_tokens c = ROk ts /\ parse_config default_config ts = ROk c' /\ same_config c c' /\ c <> c'.
Proof.
  eexists; eexists; eexists. split; [reflexivity|]. split; [vm_compute; reflexivity|]. split; [vm_compute; reflexivity|].
  split; [|discriminate].
  constructor; try reflexivity.
  - cbn. repeat split; try reflexivity; try (intros; intuition congruence).
    apply (Permutation_cons_append [AItem "A"; AItem "P"] (ANamespace "n")).
  - intros k. cbn [cf_externs mget]. destruct (String.eqb_spec "O" k) as [<-|]; [reflexivity|].
    destruct (String.eqb_spec "E" k) as [<-|]; reflexivity.
Qed.

(** ** C77: functions are treated as safe only if the macro says so *)

(** What one [safety!] directive says, as the manual has it. *)
Definition says (id : string) (args : list tok) : option unsafe_policy :=
  if String.eqb id "safety" then
    match args with
    | [TUnsafe] => Some AllFunctionsSafe
    | [TIdent s] => if String.eqb s "unsafe_ffi" then Some AllFunctionsSafe
                    else if String.eqb s "unsafe_references_wrapped" then Some ReferencesWrappedAllFunctionsSafe else None
    | [] => Some AllFunctionsUnsafe
    | _ => None
    end
  else None.
Fixpoint sayings (ts : list tok) : list unsafe_policy :=
  match ts with
  | TPound :: TIdent _ :: _ :: ts' => sayings ts'
  | TIdent id :: TBang :: TGroup args :: ts' | TIdent id :: TGroup args :: ts' =>
      match says id args with Some p => p :: sayings ts' | None => sayings ts' end
  | _ => []
  end.

Lemma directive_says id d args c c1 :
  dget id need_exclamation = Some d -> parse_directive d args c = ROk (c1, []) ->
  match says id args with Some p => cf_policy c1 = p | None => cf_policy c1 = cf_policy c /\ id <> "safety" end.
Proof.
  intros D P. apply dget_in in D. unfold need_exclamation in D.
  repeat (destruct D as [D|D]; [injection D as <- <-|]); [..|destruct D]; cbn [parse_directive] in P; cbn -[parse_policy].
  1-3: destruct args as [|[] [|]]; try discriminate P; destruct (allow_push _ _); try discriminate P; injection P as <-; (split; [reflexivity|discriminate]).
  - destruct (allow_set_all _); try discriminate P; injection P as <- _. split; [reflexivity|discriminate].
  - destruct (parse_policy args) as [[p r]| |] eqn:E; try discriminate P. injection P as <- ->. cbn [cf_policy set_policy].
    unfold parse_policy in E. destruct args as [|[] rest]; try discriminate E.
    + injection E as <-. reflexivity.
    + injection E as <- ->. reflexivity.
    + destruct rest; [|discriminate E]. cbn [negb] in E. destruct (String.eqb s "unsafe_ffi"); [injection E as <-; reflexivity|].
      destruct (String.eqb s "unsafe_references_wrapped"); [injection E as <-; reflexivity|discriminate E].
  - destruct args as [|[] [|]]; try discriminate P. injection P as <-. split; [reflexivity|discriminate].
  - destruct args as [|[] [|]]; try discriminate P. injection P as <-. split; [reflexivity|discriminate].
  - destruct args as [|[] [|]]; try discriminate P. injection P as <-. split; [reflexivity|discriminate].
  - destruct args as [|[] [|]]; try discriminate P. injection P as <-. split; [reflexivity|discriminate].
  - destruct args as [|[] [|]]; try discriminate P. injection P as <-. split; [reflexivity|discriminate].
  - injection P as <- ->. split; [reflexivity|discriminate].
  - injection P as <- ->. split; [reflexivity|discriminate].
  - injection P as <- ->. split; [reflexivity|discriminate].
  - destruct args as [|[] [|]]; try discriminate P. injection P as <-. split; [reflexivity|discriminate].
  - destruct args as [|[] [|[] [|[] [|]]]]; try discriminate P. injection P as <-. split; [reflexivity|discriminate].
  - destruct args as [|[] [|]]; try discriminate P. injection P as <-. split; [reflexivity|discriminate].
  - destruct args as [|[] [|]]; try discriminate P. injection P as <-. split; [reflexivity|discriminate].
  - destruct args as [|[] [|[] [|[] [|]]]]; try discriminate P. injection P as <-. split; [reflexivity|discriminate].
  - destruct (parse_path args) as [[p r]| |] eqn:E; try discriminate P. destruct r as [|[] [|[] [|]]]; try discriminate P.
    injection P as <-. split; [reflexivity|discriminate].
  - destruct args as [|[] [|[] [|[] [|]]]]; try discriminate P. injection P as <-. split; [reflexivity|discriminate].
  - destruct args as [|[] [|[] [|[] [|]]]]; try discriminate P. injection P as <-. split; [reflexivity|discriminate].
Qed.

Lemma last_cons {A} (x d : A) l : last (x :: l) d = last l x.
Proof.
  revert x d. induction l as [|y l IH]; intros x d; [reflexivity|]. change (last (x :: y :: l) d) with (last (y :: l) d).
  rewrite (IH y d), (IH y x). reflexivity.
Qed.
Lemma run_says c ts c' : run c ts c' -> cf_policy c' = last (sayings ts) (cf_policy c).
Proof.
  induction 1 as [c|c id d t c1 ts c2 D P R IH|c id d args c1 ts c2 D P R IH|c id d args c1 ts c2 D P R IH].
  - reflexivity.
  - cbn [sayings]. cbn [need_hexathorpe dget] in D. destruct (String.eqb "include" id); [|discriminate D].
    injection D as <-. cbn [parse_directive] in P. destruct t; try discriminate P. injection P as <-. exact IH.
  - cbn [sayings]. pose proof (directive_says _ _ _ _ _ D P) as E. destruct (says id args).
    + rewrite last_cons, <- E. exact IH.
    + destruct E as [<- _]. exact IH.
  - cbn [sayings]. pose proof (directive_says _ _ _ _ _ D P) as E. destruct (says id args).
    + rewrite last_cons, <- E. exact IH.
    + destruct E as [<- _]. exact IH.
Qed.

(** The policy of an accepted macro is what its last [safety!] directive says; without one, calling any
    function is unsafe. *)
Theorem c77_policy_is_what_was_said : forall ts c, parse_config default_config ts = ROk c ->
  cf_policy c = last (sayings ts) AllFunctionsUnsafe.
Proof. intros ts c H. apply parse_run, run_says in H. exact H. Qed.
Print Assumptions c77_policy_is_what_was_said.

Lemma run_said c ts c' : run c ts c' -> forall p, In p (sayings ts) -> p <> AllFunctionsUnsafe ->
  exists pre bang args post, ts = pre ++ [TIdent "safety"] ++ bang ++ [TGroup args] ++ post
    /\ (args = [TUnsafe] \/ args = [TIdent "unsafe_ffi"] \/ args = [TIdent "unsafe_references_wrapped"]).
Proof.
  assert (S1 : forall id args p, says id args = Some p -> p <> AllFunctionsUnsafe -> id = "safety"
    /\ (args = [TUnsafe] \/ args = [TIdent "unsafe_ffi"] \/ args = [TIdent "unsafe_references_wrapped"])).
  { intros id args p. unfold says. destruct (String.eqb_spec id "safety") as [->|]; [|discriminate].
    destruct args as [|[] [|]]; try discriminate.
    - intros E N. injection E as <-. congruence.
    - auto.
    - destruct (String.eqb_spec s "unsafe_ffi") as [->|]; [auto|]. destruct (String.eqb_spec s "unsafe_references_wrapped") as [->|]; [auto|discriminate]. }
  induction 1 as [c|c id d t c1 ts c2 D P R IH|c id d args c1 ts c2 D P R IH|c id d args c1 ts c2 D P R IH]; intros p I N.
  - destruct I.
  - cbn [sayings] in I. destruct (IH p I N) as (pre & bang & args & post & -> & E).
    exists (TPound :: TIdent id :: t :: pre), bang, args, post. auto.
  - cbn [sayings] in I. destruct (says id args) as [q|] eqn:Q.
    + destruct I as [<-|I].
      * destruct (S1 _ _ _ Q N) as [-> E]. exists [], [TBang], args, ts. auto.
      * destruct (IH p I N) as (pre & bang & args' & post & -> & E). exists (TIdent id :: TBang :: TGroup args :: pre), bang, args', post. auto.
    + destruct (IH p I N) as (pre & bang & args' & post & -> & E). exists (TIdent id :: TBang :: TGroup args :: pre), bang, args', post. auto.
  - cbn [sayings] in I. destruct (says id args) as [q|] eqn:Q.
    + destruct I as [<-|I].
      * destruct (S1 _ _ _ Q N) as [-> E]. exists [], [], args, ts. auto.
      * destruct (IH p I N) as (pre & bang & args' & post & -> & E). exists (TIdent id :: TGroup args :: pre), bang, args', post. auto.
    + destruct (IH p I N) as (pre & bang & args' & post & -> & E). exists (TIdent id :: TGroup args :: pre), bang, args', post. auto.
Qed.
Lemma last_in {A} (l : list A) d : last l d = d \/ In (last l d) l.
Proof. revert d. induction l as [|x l IH]; intros d; [left; reflexivity|]. rewrite last_cons. destruct (IH x) as [->|I]; right; [left; reflexivity|right; exact I]. Qed.

(** So functions are safe to call only if the word [unsafe], in one of its three forms, stands in the text
    of the macro as the argument of [safety!]. *)
Theorem c77_safe_only_if_said : forall ts c, parse_config default_config ts = ROk c -> cf_policy c <> AllFunctionsUnsafe ->
  exists pre bang args post, ts = pre ++ [TIdent "safety"] ++ bang ++ [TGroup args] ++ post
    /\ (args = [TUnsafe] \/ args = [TIdent "unsafe_ffi"] \/ args = [TIdent "unsafe_references_wrapped"]).
Proof.
  intros ts c H N. rewrite (c77_policy_is_what_was_said _ _ H) in N.
  eapply run_said; [apply parse_run, H| |exact N]. destruct (last_in (sayings ts) AllFunctionsUnsafe); [congruence|assumption].
Qed.
Print Assumptions c77_safe_only_if_said.

(** A misspelt argument is refused rather than ignored. *)
Theorem c77_misspelt_refused : forall id ts c, id <> "unsafe_ffi" -> id <> "unsafe_references_wrapped" ->
  parse_config c (TIdent "safety" :: TBang :: TGroup [TIdent id] :: ts) = RErr ESafety.
Proof.
  intros id ts c N1 N2. cbn. destruct (String.eqb_spec id "unsafe_ffi"); [contradiction|].
  destruct (String.eqb_spec id "unsafe_references_wrapped"); [contradiction|]. reflexivity.
Qed.
Print Assumptions c77_misspelt_refused.

(** The directives count in order: a later [safety!()] takes the permission back. *)
Example c77_case :
  let d args := [TIdent "safety"; TBang; TGroup args] in
  option_map cf_policy (match parse_config default_config (d [TUnsafe] ++ d [TIdent "unsafe_references_wrapped"]) with ROk c => Some c | _ => None end)
    = Some ReferencesWrappedAllFunctionsSafe
  /\ option_map cf_policy (match parse_config default_config (d [TUnsafe] ++ d []) with ROk c => Some c | _ => None end)
    = Some AllFunctionsUnsafe.
Proof. split; reflexivity. Qed.
