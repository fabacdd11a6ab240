(** Lemmas about the configuration model. *)

From Coq Require Import List String Bool Arith Lia.
From Verif Require Import Base ConfigModel.
Import ListNotations.
Open Scope string_scope.
Open Scope list_scope.

(** ** Successful parses as a relation *)

Inductive run : config -> list tok -> config -> Prop :=
| run_nil c : run c [] c
| run_hash c id d t c1 ts c2 :
    dget id need_hexathorpe = Some d -> parse_directive d [t] c = ROk (c1, []) -> run c1 ts c2 ->
    run c (TPound :: TIdent id :: t :: ts) c2
| run_bang c id d args c1 ts c2 :
    dget id need_exclamation = Some d -> parse_directive d args c = ROk (c1, []) -> run c1 ts c2 ->
    run c (TIdent id :: TBang :: TGroup args :: ts) c2
| run_nobang c id d args c1 ts c2 :
    dget id need_exclamation = Some d -> parse_directive d args c = ROk (c1, []) -> run c1 ts c2 ->
    run c (TIdent id :: TGroup args :: ts) c2.

Lemma parse_run_aux n : forall ts c c', List.length ts <= n -> parse_config c ts = ROk c' -> run c ts c'.
Proof.
  induction n as [|n IH]; intros ts c c' L H.
  - destruct ts; [|cbn in L; lia]. cbn in H; injection H as <-; constructor.
  - destruct ts as [|t ts]; [cbn in H; injection H as <-; constructor|].
    destruct t; try discriminate H.
    + destruct ts as [|t ts]; [discriminate H|]. destruct t; try discriminate H.
      cbn [parse_config] in H. destruct (dget s need_hexathorpe) as [d|] eqn:D; [|discriminate H].
      destruct ts as [|t ts]; [discriminate H|].
      destruct (parse_directive d [t] c) as [[c1 r]| |] eqn:P; try discriminate H.
      destruct r; [|discriminate H].
      eapply run_hash; eauto. apply IH; [cbn in L; lia|exact H].
    + destruct ts as [|t ts]; [discriminate H|]. destruct t; try discriminate H.
      * destruct ts as [|t ts]; [discriminate H|]. destruct t; try discriminate H.
        cbn [parse_config] in H. destruct (dget s need_exclamation) as [d|] eqn:D; [|discriminate H].
        destruct (parse_directive d ts0 c) as [[c1 r]| |] eqn:P; try discriminate H.
        destruct r; [|discriminate H].
        eapply run_bang; eauto. apply IH; [cbn in L; lia|exact H].
      * cbn [parse_config] in H. destruct (dget s need_exclamation) as [d|] eqn:D; [|discriminate H].
        destruct (parse_directive d ts0 c) as [[c1 r]| |] eqn:P; try discriminate H.
        destruct r; [|discriminate H].
        eapply run_nobang; eauto. apply IH; [cbn in L; lia|exact H].
Qed.

Lemma parse_run ts c c' : parse_config c ts = ROk c' -> run c ts c'.
Proof. apply parse_run_aux with (n := List.length ts); lia. Qed.

Lemma run_parse c ts c' : run c ts c' -> parse_config c ts = ROk c'.
Proof.
  induction 1 as [| ? ? ? ? ? ? ? D P _ IH | ? ? ? ? ? ? ? D P _ IH | ? ? ? ? ? ? ? D P _ IH]; cbn [parse_config]; [reflexivity|..];
    rewrite D, P; exact IH.
Qed.

(** An invariant which every directive keeps holds of every parsed
    configuration. *)
Lemma run_inv (P : config -> Prop) :
  (forall d ts c c' r, P c -> parse_directive d ts c = ROk (c', r) -> P c') ->
  forall c ts c', run c ts c' -> P c -> P c'.
Proof. intros S; induction 1; eauto. Qed.

(** ** Parsing what was printed *)

Lemma dget_excl_generate : dget "generate" need_exclamation = Some (DGenerate false). Proof. reflexivity. Qed.

(** Printing one directive's outputs and parsing them again. *)
Lemma run_emit {A} (n : string) (d : directive) (f : A -> list tok) (g : config -> A -> config) (Q : config -> Prop) :
  dget n need_exclamation = Some d ->
  forall l,
  (forall c a, In a l -> Q c -> parse_directive d (f a) c = ROk (g c a, []) /\ Q (g c a)) ->
  forall c rest c', Q c ->
  (Q (fold_left g l c) -> run (fold_left g l c) rest c') ->
  run c (flat_map (wrap_exclamation n) (map f l) ++ rest) c'.
Proof.
  intros D l; induction l as [|a l IH]; intros S c rest c' HQ H; cbn [map flat_map fold_left app] in *; [auto|].
  unfold wrap_exclamation at 1; cbn [app].
  destruct (S c a (or_introl eq_refl) HQ) as [E HQ'].
  eapply run_bang; [exact D|exact E|].
  apply IH; [intros; apply S; [right|]; assumption| |]; assumption.
Qed.

Lemma run_emit_hash (f : string -> list tok) (g : config -> string -> config) :
  (forall a, exists t, f a = [t]) ->
  (forall c a, parse_directive DInclusion (f a) c = ROk (g c a, [])) ->
  forall l c rest c', run (fold_left g l c) rest c' ->
  run c (flat_map (wrap_hexathorpe "include") (map f l) ++ rest) c'.
Proof.
  intros T S l; induction l as [|a l IH]; intros c rest c' H; cbn [map flat_map fold_left app] in *; [auto|].
  unfold wrap_hexathorpe at 1. destruct (T a) as [t E]; rewrite E; cbn [app].
  eapply run_hash; [reflexivity| rewrite <- E; apply S|]. apply IH; exact H.
Qed.

Lemma fold_push {A} (set : (list A -> list A) -> config -> config) (get : config -> list A) :
  (forall f c, get (set f c) = f (get c)) ->
  (forall f c, set f c = set (fun _ => f (get c)) c) ->
  (forall v w c, set (fun _ => v) (set (fun _ => w) c) = set (fun _ => v) c) ->
  (forall c, set (fun _ => get c) c = c) ->
  forall l c, fold_left (fun c x => set (vpush x) c) l c = set (fun _ => get c ++ l) c.
Proof.
  intros G1 G2 G3 G4; induction l as [|x l IH]; intros c; cbn [fold_left].
  - rewrite app_nil_r, G4; reflexivity.
  - rewrite IH, (G2 (vpush x) c), G3, G1. unfold vpush; rewrite <- app_assoc; reflexivity.
Qed.

Lemma parse_path_rest_tokens p q rest :
  match rest with TSep :: _ => False | _ => True end ->
  q <> [] ->
  parse_path_rest p (TSep :: path_tokens q ++ rest) = ROk (p ++ q, rest).
Proof.
  intros R; revert p; induction q as [|a q IH]; intros p N; [congruence|].
  destruct q as [|b q].
  - cbn [path_tokens app]. cbn [parse_path_rest].
    destruct rest as [|[] rest]; try reflexivity. destruct R.
  - change (path_tokens (a :: b :: q)) with (TIdent a :: TSep :: path_tokens (b :: q)).
    cbn [app]. cbn [parse_path_rest].
    change (parse_path_rest (p ++ [a]) (TSep :: path_tokens (b :: q) ++ rest) = ROk (p ++ a :: b :: q, rest)).
    rewrite IH by discriminate. rewrite <- app_assoc; reflexivity.
Qed.

Lemma parse_path_tokens q rest :
  match rest with TSep :: _ => False | _ => True end ->
  q <> [] -> parse_path (path_tokens q ++ rest) = ROk (q, rest).
Proof.
  intros R N; destruct q as [|a [|b q]]; [congruence| |].
  - cbn [path_tokens app parse_path]. destruct rest as [|[] rest]; try reflexivity. destruct R.
  - change (path_tokens (a :: b :: q)) with (TIdent a :: TSep :: path_tokens (b :: q)).
    cbn [app parse_path]. apply parse_path_rest_tokens; [exact R|discriminate].
Qed.

(** Maps *)

Lemma minsert_new {V} k (v : V) m : ~ In k (map fst m) -> minsert k v m = m ++ [(k, v)].
Proof.
  induction m as [|[k' v'] m IH]; cbn; intros N; [reflexivity|].
  destruct (String.eqb_spec k' k) as [->|]; [exfalso; auto|]. rewrite IH; auto.
Qed.

Lemma minsert_keys {V} k (v : V) m : forall x, In x (map fst (minsert k v m)) <-> x = k \/ In x (map fst m).
Proof.
  induction m as [|[k' v'] m IH]; cbn; intros x; [intuition|].
  destruct (String.eqb_spec k' k) as [->|]; cbn; [intuition|]. rewrite IH; intuition.
Qed.

Lemma minsert_nodup {V} k (v : V) m : NoDup (map fst m) -> NoDup (map fst (minsert k v m)).
Proof.
  induction m as [|[k' v'] m IH]; cbn; intros N; [constructor; [easy|constructor]|].
  apply NoDup_cons_iff in N as [N1 N2].
  destruct (String.eqb_spec k' k) as [->|]; cbn; constructor; auto.
  rewrite minsert_keys; intuition.
Qed.

(** Inserting entries with new, different keys appends them. *)
Lemma fold_minsert {V W} (h : W -> string * V) l : forall m,
  NoDup (map (fun w => fst (h w)) l) -> (forall w, In w l -> ~ In (fst (h w)) (map fst m)) ->
  fold_left (fun m w => minsert (fst (h w)) (snd (h w)) m) l m = m ++ map h l.
Proof.
  induction l as [|w l IH]; intros m N D; cbn [fold_left map]; [rewrite app_nil_r; reflexivity|].
  cbn [map] in N; apply NoDup_cons_iff in N as [N1 N2].
  rewrite minsert_new by (apply D; left; reflexivity).
  rewrite IH; [rewrite <- app_assoc; cbn; destruct (h w); reflexivity|exact N2|].
  intros w' I. rewrite map_app, in_app_iff; intros [J|[J|[]]].
  - exact (D w' (or_intror I) J).
  - cbn in J. apply N1. rewrite J. exact (in_map (fun w => fst (h w)) l w' I).
Qed.

Lemma set_concretes_fold l : forall c,
  fold_left (fun c (kv : string * string) => set_concretes (minsert (fst kv) (snd kv)) c) l c
  = set_concretes (fun m => fold_left (fun m (w : string * string) => minsert (fst w) (snd w) m) l m) c.
Proof. induction l as [|x l IH]; intros c; cbn [fold_left]; [destruct c; reflexivity|]. rewrite IH; reflexivity. Qed.

Lemma set_externs_fold l : forall c,
  fold_left (fun c (kv : string * extern_cpp_type) => set_externs (minsert (fst kv) (snd kv)) c) l c
  = set_externs (fun m => fold_left (fun m (w : string * extern_cpp_type) => minsert (fst w) (snd w) m) l m) c.
Proof. induction l as [|x l IH]; intros c; cbn [fold_left]; [destruct c; reflexivity|]. rewrite IH; reflexivity. Qed.

(** ** What a printed configuration comes back as *)

Definition with_opaque (o : bool) (m : list (string * extern_cpp_type)) :=
  filter (fun kv => Bool.eqb (et_opaque (snd kv)) o) m.

Definition reread_allow (a : allowlist) : allowlist :=
  match a with
  | AUnspecified l => AUnspecified l
  | AAll => AAll
  | ASpecific l =>
      match items l, namespaces l with
      | [], [] => AUnspecified []
      | i, n => ASpecific (map AItem i ++ map ANamespace n)
      end
  end.

Definition reread (c : config) : config :=
  set_allowlist (reread_allow (cf_allowlist c))
    (set_externs (fun m => with_opaque false m ++ with_opaque true m) c).

(** Configurations which can be printed and read again. *)
Record printable (c : config) : Prop := {
  pr_allow : forall l, cf_allowlist c <> AUnspecified l;
  pr_concretes : NoDup (map fst (cf_concretes c));
  pr_externs : NoDup (map fst (cf_externs c));
  pr_types : forall p, In p (cf_rust_types c) -> exists id, p = [id];
  pr_funs : forall f, In f (cf_extern_rust_funs c) -> rf_path f <> [] /\ rf_has_receiver f = false }.

Lemma filter_flat {A B} (p : A -> bool) (f : A -> B) l :
  flat_map (fun a => if p a then [f a] else []) l = map f (filter p l).
Proof. induction l as [|a l IH]; cbn; [reflexivity|]. destruct (p a); cbn; rewrite IH; reflexivity. Qed.

Lemma NoDup_filter_fst {V} (p : string * V -> bool) m : NoDup (map fst m) -> NoDup (map fst (filter p m)).
Proof.
  induction m as [|kv m IH]; cbn; intros N; [constructor|]. apply NoDup_cons_iff in N as [N1 N2].
  destruct (p kv); cbn; auto. constructor; auto. intros I; apply N1.
  apply in_map_iff in I as (x & E & I). apply filter_In in I as [I _]. rewrite <- E; apply in_map; exact I.
Qed.

Lemma nodup_fst_inj {V} (m : list (string * V)) k v w : NoDup (map fst m) -> In (k, v) m -> In (k, w) m -> v = w.
Proof.
  induction m as [|[k' v'] m IH]; cbn; intros N; [easy|]. apply NoDup_cons_iff in N as [N1 N2].
  intros [E|I] [F|J]; [congruence| | |auto].
  - injection E as -> ->. exfalso; apply N1. apply (in_map fst) in J; exact J.
  - injection F as -> ->. exfalso; apply N1. apply (in_map fst) in I; exact I.
Qed.

(** Pushing items onto an allowlist which is not [All]. *)
Definition push_item (mk : string -> allow_entry) (c : config) (s : string) : config :=
  match cf_allowlist c with
  | AUnspecified l | ASpecific l => set_allowlist (ASpecific (l ++ [mk s])) c
  | AAll => c
  end.
Definition not_all (c : config) : Prop := cf_allowlist c <> AAll.

Lemma push_item_not_all mk c s : not_all c -> not_all (push_item mk c s).
Proof. unfold not_all, push_item; destruct (cf_allowlist c) eqn:E; cbn; congruence. Qed.

Lemma fold_push_item mk l : forall c, not_all c ->
  fold_left (push_item mk) l c =
  match l with
  | [] => c
  | _ => match cf_allowlist c with
         | AUnspecified k | ASpecific k => set_allowlist (ASpecific (k ++ map mk l)) c
         | AAll => c
         end
  end.
Proof.
  induction l as [|s l IH]; intros c N; cbn [fold_left]; [reflexivity|].
  rewrite IH by (apply push_item_not_all; exact N).
  unfold push_item. unfold not_all in N. destruct (cf_allowlist c) eqn:E; [| congruence |];
    (destruct l as [|s' l]; [reflexivity|]; cbn; rewrite <- app_assoc; reflexivity).
Qed.

Lemma run_app c ts c1 : run c ts c1 -> forall ts' c2, run c1 ts' c2 -> run c (ts ++ ts') c2.
Proof.
  induction 1; intros ts' c2' R; cbn [app]; [exact R| | |]; econstructor; eauto.
Qed.

Definition out (d : directive) (c : config) : list (list tok) :=
  match output d c with ROk os => os | _ => [] end.

Lemma output_out d c : (forall l, cf_allowlist c <> AUnspecified l) -> output d c = ROk (out d c).
Proof.
  intros N. unfold out. destruct d; cbn [output]; try reflexivity;
    try (destruct (cf_allowlist c) as [l| |l] eqn:A; [exfalso; exact (N l eq_refl)|reflexivity|reflexivity]).
  destruct (cf_policy c); reflexivity.
Qed.

Lemma print_table_out w c l : (forall l, cf_allowlist c <> AUnspecified l) ->
  print_table w l c = ROk (flat_map (fun nd => flat_map (w (fst nd)) (out (snd nd) c)) l).
Proof.
  intros N; induction l as [|[n d] l IH]; [reflexivity|].
  cbn [print_table]. rewrite output_out by exact N. rewrite IH. reflexivity.
Qed.

Lemma to_tokens_out c : (forall l, cf_allowlist c <> AUnspecified l) ->
  to_tokens c = ROk (flat_map (wrap_hexathorpe "include") (out DInclusion c)
    ++ flat_map (fun nd => flat_map (wrap_exclamation (fst nd)) (out (snd nd) c)) need_exclamation).
Proof.
  intros N; unfold to_tokens. rewrite !print_table_out by exact N. cbn [need_hexathorpe flat_map fst snd].
  rewrite app_nil_r; reflexivity.
Qed.

(** The chain of all directives. *)
Fixpoint chain (l : list (string * directive)) (c : config) (c0 : config) (c2 : config) : Prop :=
  match l with
  | [] => c0 = c2
  | (n, d) :: l' => exists c1, run c0 (flat_map (wrap_exclamation n) (out d c)) c1 /\ chain l' c c1 c2
  end.

Lemma chain_run l c : forall c0 c2, chain l c c0 c2 ->
  run c0 (flat_map (fun nd => flat_map (wrap_exclamation (fst nd)) (out (snd nd) c)) l) c2.
Proof.
  induction l as [|[n d] l IH]; intros c0 c2; cbn [chain flat_map fst snd].
  - intros ->; constructor.
  - intros (c1 & R & C). eapply run_app; [exact R|apply IH; exact C].
Qed.

(** One directive at a time. *)
Lemma emit_simple {A} n d (f : A -> list tok) g l c :
  dget n need_exclamation = Some d ->
  (forall c a, In a l -> parse_directive d (f a) c = ROk (g c a, [])) ->
  run c (flat_map (wrap_exclamation n) (map f l)) (fold_left g l c).
Proof.
  intros D S. rewrite <- (app_nil_r (flat_map _ _)).
  eapply (run_emit n d f g (fun _ => True) D l); auto. intros; constructor.
Qed.

Lemma emit_list f n c c0 : dget n need_exclamation = Some (DStringList f) ->
  run c0 (flat_map (wrap_exclamation n) (out (DStringList f) c)) (set_list f (fun l => l ++ get_list f c) c0).
Proof.
  intros D.
  assert (E : set_list f (fun l => l ++ get_list f c) c0 = fold_left (fun c x => set_list f (vpush x) c) (get_list f c) c0).
  { rewrite (fold_push (set_list f) (get_list f)).
    - destruct f; reflexivity.
    - destruct f; reflexivity.
    - destruct f; reflexivity.
    - destruct f; reflexivity.
    - intros x; destruct f, x; reflexivity. }
  rewrite E. unfold out; cbn [output]; eapply emit_simple; [exact D|]. reflexivity.
Qed.

Lemma emit_flag f n c c0 : dget n need_exclamation = Some (DBoolFlag f) ->
  run c0 (flat_map (wrap_exclamation n) (out (DBoolFlag f) c)) (if get_flag f c then set_flag f true c0 else c0).
Proof.
  intros D. unfold out; cbn [output]. destruct (get_flag f c); cbn [flat_map app]; [|constructor].
  eapply run_bang; [exact D|reflexivity|constructor].
Qed.

Lemma emit_safety c c0 :
  cf_policy c0 = AllFunctionsUnsafe ->
  run c0 (flat_map (wrap_exclamation "safety") (out DSafety c)) (set_policy (cf_policy c) c0).
Proof.
  intros P. unfold out; cbn [output]. destruct (cf_policy c); cbn [flat_map app].
  - eapply run_bang; [reflexivity|reflexivity|constructor].
  - replace (set_policy AllFunctionsUnsafe c0) with c0 by (destruct c0; cbn in P; subst; reflexivity). constructor.
  - eapply run_bang; [reflexivity|reflexivity|constructor].
Qed.

Lemma emit_name c c0 :
  cf_mod_name c0 = None ->
  run c0 (flat_map (wrap_exclamation "name") (out DModName c)) (set_mod_name (cf_mod_name c) c0).
Proof.
  intros P. unfold out; cbn [output]. destruct (cf_mod_name c); cbn [flat_map app].
  - eapply run_bang; [reflexivity|reflexivity|constructor].
  - replace (set_mod_name None c0) with c0 by (destruct c0; cbn in P; subst; reflexivity). constructor.
Qed.

Lemma emit_concrete c c0 :
  NoDup (map fst (cf_concretes c)) -> cf_concretes c0 = [] ->
  run c0 (flat_map (wrap_exclamation "concrete") (out DConcrete c)) (set_concretes (fun _ => cf_concretes c) c0).
Proof.
  intros N P.
  replace (set_concretes (fun _ => cf_concretes c) c0)
    with (fold_left (fun c (kv : string * string) => set_concretes (minsert (fst kv) (snd kv)) c) (cf_concretes c) c0).
  - unfold out; cbn [output]; eapply emit_simple; reflexivity.
  - rewrite set_concretes_fold. unfold set_concretes; f_equal.
    rewrite (fold_minsert (fun w => w)); [rewrite P, map_id; reflexivity|exact N|rewrite P; intros ? ? []].
Qed.

Lemma emit_rust_type c c0 : (forall p, In p (cf_rust_types c) -> exists id, p = [id]) ->
  run c0 (flat_map (wrap_exclamation "extern_rust_type") (out (DRustType true) c))
    (set_rust_types (fun l => l ++ cf_rust_types c) c0).
Proof.
  intros S.
  assert (E : set_rust_types (fun l => l ++ cf_rust_types c) c0
              = fold_left (fun c x => set_rust_types (vpush x) c) (cf_rust_types c) c0).
  { rewrite (fold_push set_rust_types cf_rust_types); try reflexivity. intros []; reflexivity. }
  rewrite E. unfold out; cbn [output]; eapply emit_simple; [reflexivity|]. intros c1 p I. destruct (S p I) as [id ->]. reflexivity.
Qed.

Lemma emit_subclass c c0 :
  run c0 (flat_map (wrap_exclamation "subclass") (out DSubclass c))
    (set_subclasses (fun l => l ++ cf_subclasses c) c0).
Proof.
  assert (E : set_subclasses (fun l => l ++ cf_subclasses c) c0
              = fold_left (fun c x => set_subclasses (vpush x) c) (cf_subclasses c) c0).
  { rewrite (fold_push set_subclasses cf_subclasses); try reflexivity. intros []; reflexivity. }
  rewrite E. unfold out; cbn [output]; eapply emit_simple; [reflexivity|]. intros c1 [] I. reflexivity.
Qed.

Lemma emit_fun c c0 :
  (forall f, In f (cf_extern_rust_funs c) -> rf_path f <> [] /\ rf_has_receiver f = false) ->
  run c0 (flat_map (wrap_exclamation "extern_rust_function") (out DExternRustFun c))
    (set_extern_rust_funs (fun l => l ++ cf_extern_rust_funs c) c0).
Proof.
  intros S.
  assert (E : set_extern_rust_funs (fun l => l ++ cf_extern_rust_funs c) c0
              = fold_left (fun c x => set_extern_rust_funs (vpush x) c) (cf_extern_rust_funs c) c0).
  { rewrite (fold_push set_extern_rust_funs cf_extern_rust_funs); try reflexivity. intros []; reflexivity. }
  rewrite E. unfold out; cbn [output]; eapply emit_simple; [reflexivity|]. intros c1 [p sg rc] I. destruct (S _ I) as [Np Nr].
  cbn in Np, Nr; subst rc. cbn [parse_directive rf_path rf_sig].
  rewrite parse_path_tokens by (exact Np || exact Logic.I). reflexivity.
Qed.

Lemma emit_extern o n c c0 :
  dget n need_exclamation = Some (DExternCppType o) ->
  NoDup (map fst (cf_externs c)) ->
  (forall k, In k (map fst (with_opaque o (cf_externs c))) -> ~ In k (map fst (cf_externs c0))) ->
  run c0 (flat_map (wrap_exclamation n) (out (DExternCppType o) c))
    (set_externs (fun m => m ++ with_opaque o (cf_externs c)) c0).
Proof.
  intros D N F. unfold out; cbn [output]. rewrite filter_flat.
  replace (set_externs (fun m => m ++ with_opaque o (cf_externs c)) c0)
    with (fold_left (fun c (kv : string * extern_cpp_type) => set_externs (minsert (fst kv) (snd kv)) c)
            (with_opaque o (cf_externs c)) c0).
  - unfold out; cbn [output]; eapply emit_simple; [exact D|]. intros c1 [k [p b]] I. unfold with_opaque in I. apply filter_In in I as [_ I].
    cbn in I. apply eqb_prop in I; subst b. reflexivity.
  - rewrite set_externs_fold. unfold set_externs; f_equal.
    rewrite (fold_minsert (fun w => w)); [rewrite map_id; reflexivity| |].
    + apply NoDup_filter_fst; exact N.
    + intros w I. apply F. apply in_map; exact I.
Qed.

Lemma emit_entries mk n d c0 l :
  dget n need_exclamation = Some d ->
  (forall c s, parse_directive d [TStr s] c =
     match allow_push (mk s) (cf_allowlist c) with
     | ROk a => ROk (set_allowlist a c, []) | RErr e => RErr e | RPanic => RPanic end) ->
  not_all c0 ->
  run c0 (flat_map (wrap_exclamation n) (map (fun s => [TStr s]) l)) (fold_left (push_item mk) l c0).
Proof.
  intros D S N. rewrite <- (app_nil_r (flat_map _ _)).
  eapply (run_emit n d _ (push_item mk) not_all D l).
  - intros c a _ Nc. split; [|apply push_item_not_all; exact Nc].
    rewrite S. unfold push_item. unfold not_all in Nc. destruct (cf_allowlist c); [reflexivity|congruence|reflexivity].
  - exact N.
  - intros _; constructor.
Qed.

Lemma round_trip c : printable c ->
  exists ts, to_tokens c = ROk ts /\ parse_config default_config ts = ROk (reread c).
Proof.
  intros [PA PC PE PT PF]. eexists; split; [apply to_tokens_out; exact PA|].
  apply run_parse.
  set (ci := set_inclusions (fun _ => cf_inclusions c) default_config).
  eapply run_app with (c1 := ci).
  { unfold out; cbn [output]. rewrite <- (app_nil_r (flat_map _ _)).
    apply run_emit_hash with (g := fun c s => set_inclusions (vpush s) c); [eauto|reflexivity|].
    replace (fold_left _ _ _) with ci; [constructor|].
    rewrite (fold_push set_inclusions cf_inclusions); try reflexivity. intros []; reflexivity. }
  apply chain_run.
  set (ca := set_allowlist (reread_allow (cf_allowlist c)) ci).
  assert (HA : forall rest c2, chain rest c ca c2 ->
    chain (("generate", DGenerate false) :: ("generate_pod", DGenerate true) :: ("generate_ns", DGenerateNs)
           :: ("generate_all", DGenerateAll) :: rest) c ci c2).
  { intros rest c2 H. destruct (cf_allowlist c) as [l| |l] eqn:A; [exfalso; exact (PA l eq_refl)| |].
    - exists ci; split; [unfold out; cbn [output]; rewrite A; constructor|].
      exists ci; split; [unfold out; cbn [output]; rewrite A; constructor|].
      exists ci; split; [unfold out; cbn [output]; rewrite A; constructor|].
      exists ca; split; [unfold out; cbn [output]; rewrite A|exact H].
      cbn [flat_map app]. eapply run_bang; [reflexivity|reflexivity|constructor].
    - exists (fold_left (push_item AItem) (items l) ci); split.
      { unfold out; cbn [output]; rewrite A. eapply emit_entries; [reflexivity|reflexivity|discriminate]. }
      eexists; split; [unfold out; cbn [output]; rewrite A; constructor|].
      exists (fold_left (push_item ANamespace) (namespaces l) (fold_left (push_item AItem) (items l) ci)); split.
      { unfold out; cbn [output]; rewrite A. eapply emit_entries; [reflexivity|reflexivity|].
        rewrite fold_push_item by discriminate. destruct (items l); discriminate. }
      eexists; split; [unfold out; cbn [output]; rewrite A; constructor|].
      replace (fold_left (push_item ANamespace) (namespaces l) (fold_left (push_item AItem) (items l) ci)) with ca;
        [exact H|].
      rewrite (fold_push_item AItem) by discriminate.
      rewrite fold_push_item by (destruct (items l); discriminate).
      unfold ca; cbn [reread_allow].
      destruct (items l) as [|i li], (namespaces l) as [|m ln]; cbn; rewrite ?app_nil_r; reflexivity. }
  apply HA; clear HA.
  eexists; split; [apply emit_safety; reflexivity|].
  eexists; split; [apply emit_list; reflexivity|].
  eexists; split; [apply emit_list; reflexivity|].
  eexists; split; [apply emit_list; reflexivity|].
  eexists; split; [apply emit_list; reflexivity|].
  eexists; split; [apply emit_list; reflexivity|].
  eexists; split; [apply emit_flag; reflexivity|].
  eexists; split; [apply emit_flag; reflexivity|].
  eexists; split; [apply emit_flag; reflexivity|].
  eexists; split; [apply emit_name; destruct (get_flag _ c), (get_flag _ c), (get_flag _ c); reflexivity|].
  eexists; split; [apply emit_concrete; [exact PC|destruct (get_flag _ c), (get_flag _ c), (get_flag _ c); reflexivity]|].
  eexists; split; [constructor|].
  eexists; split; [apply emit_rust_type; exact PT|].
  eexists; split; [apply emit_subclass|].
  eexists; split; [apply emit_fun; exact PF|].
  eexists; split; [apply emit_extern; [reflexivity|exact PE|]|].
  { destruct (get_flag _ c), (get_flag _ c), (get_flag _ c); intros ? ? []. }
  eexists; split; [apply emit_extern; [reflexivity|exact PE|]|].
  { intros k I J.
    assert (J' : In k (map fst (with_opaque false (cf_externs c)))).
    { revert J. destruct (get_flag _ c), (get_flag _ c), (get_flag _ c); exact (fun x => x). }
    apply in_map_iff in I as ([k1 v1] & E1 & I). apply in_map_iff in J' as ([k2 v2] & E2 & J').
    cbn in E1, E2; subst k1 k2. unfold with_opaque in I, J'. apply filter_In in I as [I O1].
    apply filter_In in J' as [J' O2]. pose proof (nodup_fst_inj _ _ _ _ PE I J') as <-.
    cbn in O1, O2. destruct (et_opaque v1); discriminate. }
  cbn [chain]. clear - PA. unfold reread, ca, ci. destruct c as [inc pol po ei pods al bl cbl ins eu mn rt sc erf con ext opl].
  cbn. destruct po, ei, eu; reflexivity.
Qed.

(** ** Invariants of parsed configurations *)

Record parsed (c : config) : Prop := {
  pd_allow : forall l, cf_allowlist c = AUnspecified l -> l = [];
  pd_specific : cf_allowlist c <> ASpecific [];
  pd_concretes : NoDup (map fst (cf_concretes c));
  pd_externs : NoDup (map fst (cf_externs c));
  pd_types : forall p, In p (cf_rust_types c) -> exists id, p = [id];
  pd_funs : forall f, In f (cf_extern_rust_funs c) -> rf_path f <> [] /\ rf_has_receiver f = false }.

Lemma parse_path_rest_ne ts : forall p q r, p <> [] -> parse_path_rest p ts = ROk (q, r) -> q <> [].
Proof.
  assert (G : forall n ts, List.length ts <= n -> forall p q r, p <> [] -> parse_path_rest p ts = ROk (q, r) -> q <> []).
  { induction n as [|n IH]; intros l L p q r N H.
    - destruct l; [|cbn in L; lia]. cbn in H; congruence.
    - destruct l as [|t l]; [cbn in H; congruence|].
      destruct t; try (cbn in H; congruence).
      destruct l as [|t l]; [cbn in H; congruence|].
      destruct t; try (cbn in H; congruence).
      cbn [parse_path_rest] in H. eapply IH; [| |exact H]; [cbn in L; lia|].
      destruct p; discriminate. }
  eapply G; reflexivity.
Qed.

Lemma allow_push_parsed e a a' : allow_push e a = ROk a' -> exists l, a' = ASpecific (l ++ [e]).
Proof. destruct a; cbn; intros H; try discriminate; injection H as <-; eexists; reflexivity. Qed.

Lemma parsed_step d ts c c' r : parsed c -> parse_directive d ts c = ROk (c', r) -> parsed c'.
Proof.
  intros [A B C D E F] H. destruct d; cbn [parse_directive] in H.
  - destruct ts as [|[] ts]; try discriminate H. injection H as <- <-. constructor; assumption.
  - destruct ts as [|[] ts]; try discriminate H.
    destruct (allow_push _ _) as [a| |] eqn:P; try discriminate H. apply allow_push_parsed in P as [l ->].
    injection H as <- <-. destruct pod; constructor; try assumption; cbn; try discriminate.
    all: intros X; injection X; destruct l; discriminate.
  - destruct ts as [|[] ts]; try discriminate H.
    destruct (allow_push _ _) as [a| |] eqn:P; try discriminate H. apply allow_push_parsed in P as [l ->].
    injection H as <- <-. constructor; try assumption; cbn; try discriminate.
    intros X; injection X; destruct l; discriminate.
  - destruct (cf_allowlist c) as [l| |l]; cbn in H; try discriminate H; injection H as <- <-;
      constructor; try assumption; discriminate.
  - destruct (parse_policy ts) as [[p r']| |]; try discriminate H. injection H as <- <-. constructor; assumption.
  - destruct ts as [|[] ts]; try discriminate H. injection H as <- <-. destruct f; constructor; assumption.
  - injection H as <- <-. destruct f; constructor; assumption.
  - destruct ts as [|[] ts]; try discriminate H. injection H as <- <-. constructor; assumption.
  - destruct ts as [|[] [|[] [|[] ts]]]; try discriminate H. injection H as <- <-. constructor; try assumption.
    cbn. apply minsert_nodup; assumption.
  - destruct ts as [|[] ts]; try discriminate H. injection H as <- <-. constructor; try assumption.
    cbn; intros p. unfold vpush; rewrite in_app_iff. intros [I|[<-|[]]]; eauto.
  - destruct ts as [|[] [|[] [|[] ts]]]; try discriminate H. injection H as <- <-. constructor; assumption.
  - destruct (parse_path ts) as [[p r']| |] eqn:P; try discriminate H.
    destruct r' as [|[] [|[] r']]; try discriminate H. injection H as <- <-. constructor; try assumption.
    cbn; intros f. unfold vpush; rewrite in_app_iff. intros [I|[<-|[]]]; [auto|]. cbn; split; [|reflexivity].
    unfold parse_path in P. destruct ts as [|[] ts]; try discriminate P.
    eapply parse_path_rest_ne; [|exact P]; discriminate.
  - destruct ts as [|[] [|[] [|[] ts]]]; try discriminate H. injection H as <- <-. constructor; try assumption.
    cbn. apply minsert_nodup; assumption.
Qed.

Lemma parsed_default : parsed default_config.
Proof. constructor; cbn; try constructor; try easy. congruence. Qed.

Lemma parsed_config ts c : parse_config default_config ts = ROk c -> parsed c.
Proof.
  intros H. apply parse_run in H. eapply (run_inv parsed); [exact parsed_step|exact H|exact parsed_default].
Qed.

Lemma parsed_printable c : parsed c -> printable (confirm_complete c).
Proof.
  intros [A B C D E F]. unfold confirm_complete. destruct (cf_allowlist c) eqn:X; constructor; cbn; try assumption.
  all: intros l'; rewrite ?X; discriminate.
Qed.
