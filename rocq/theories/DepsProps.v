(** C96: the headers a build depends on are all recorded. *)
From Verif Require Import Base ConfigModel DiscoverModel EngineModel ParseFileModel ParseFileProps OutputModel DepsModel.
Local Open Scope list_scope.

Definition line (f : string) : string := "cargo:rerun-if-changed=" +++ f.

Section Recording.
Variable hash : config -> string.
Variable nightly : bool.
Variable prelude : string.
Variable convert : request -> config -> outcome conversion.
Variable reads : request -> config -> list string.
Variables incs extra : list string.
Variable relativize : string -> option string.
Notation gen := (generate hash nightly prelude convert incs extra).
Notation read := (read_by hash nightly prelude reads incs extra).
Notation all S r := (record_all hash nightly prelude convert reads incs extra S r).

Lemma cargo_fold : forall fs s,
  NoDup (cr_already s) -> cr_printed s = map line (cr_already s) ->
  let s' := fold_left cargo_record fs s in
  NoDup (cr_already s') /\ cr_printed s' = map line (cr_already s') /\ (forall f, In f (cr_already s') <-> In f (cr_already s) \/ In f fs)
  /\ exists r, cr_already s' = cr_already s ++ r.
Proof.
  induction fs as [|f fs IH]; intros s N P; cbn [fold_left].
  - split; [exact N|]. split; [exact P|]. split; [cbn; tauto|]. exists []. rewrite app_nil_r. reflexivity.
  - assert (Q : cargo_record s f = if smem f (cr_already s) then s else CargoRecorder (cr_already s ++ [f]) (cr_printed s ++ ["cargo:rerun-if-changed=" +++ f])) by reflexivity.
    rewrite Q. clear Q. destruct (smem f (cr_already s)) eqn:M.
    + destruct (IH s N P) as (A & B & C & D). split; [exact A|]. split; [exact B|]. split; [|exact D]. intros g. rewrite C. cbn. apply smem_In in M. split; [tauto|].
      intros [H|[<-|H]]; auto.
    + assert (NI : ~ In f (cr_already s)) by (intros I; apply smem_In in I; congruence).
      destruct (IH (CargoRecorder (cr_already s ++ [f]) (cr_printed s ++ ["cargo:rerun-if-changed=" +++ f]))) as (A & B & C & r & D).
      * cbn. apply NoDup_app_intro; [exact N|constructor; [intros []|constructor]|]. intros x I [<-|[]]. exact (NI I).
      * cbn. rewrite map_app, P. reflexivity.
      * split; [exact A|]. split; [exact B|]. split; [|exists (f :: r); rewrite D; cbn; rewrite <- app_assoc; reflexivity]. intros g. rewrite C. cbn. rewrite in_app_iff. cbn. tauto.
Qed.

Lemma all_fold S (rec : S -> string -> S) : forall l found s,
  exists l1 l2, l = l1 ++ l2 /\ all S rec l found s = fold_left rec (flat_map read l1) s
    /\ (l2 = [] \/ (exists e, In e l /\ In (get_mod_name (en_config e)) found) \/ ~ NoDup (names l) \/ exists e, In e l1 /\ forall u, snd (gen e) <> Done u).
Proof.
  induction l as [|e l IH]; intros found s; cbn [record_all].
  - exists [], []. cbn. auto.
  - destruct (smem (get_mod_name (en_config e)) found) eqn:M.
    + exists [], (e :: l). cbn. split; [reflexivity|]. split; [reflexivity|]. right. left. exists e. apply smem_In in M. auto.
    + destruct (snd (gen e)) as [u|x|] eqn:G.
      * destruct (IH (get_mod_name (en_config e) :: found) (fold_left rec (read e) s)) as (l1 & l2 & -> & E & O).
        exists (e :: l1), l2. split; [reflexivity|]. cbn [flat_map]. rewrite fold_left_app. split; [exact E|].
        destruct O as [O|[(x & I & [F|F])|[O|(x & I & F)]]].
        -- auto.
        -- right. right. left. cbn. intros N. inversion N as [|? ? NI _]. apply NI. unfold names. rewrite F. apply in_map_iff. exists x. auto.
        -- right. left. exists x. cbn. auto.
        -- right. right. left. cbn. intros N. inversion N. auto.
        -- right. right. right. exists x. cbn. auto.
      * exists [e], l. cbn. rewrite app_nil_r. split; [reflexivity|]. split; [reflexivity|]. right. right. right. exists e. split; [auto|]. intros u. congruence.
      * exists [e], l. cbn. rewrite app_nil_r. split; [reflexivity|]. split; [reflexivity|]. right. right. right. exists e. split; [auto|]. intros u. congruence.
Qed.

(** What is read for a block which is generated: what bindgen reads for its request. Nothing is for one which is only parsed. *)
Lemma read_generated e u : snd (gen e) = Done u ->
  forall f, In f (read e) <-> en_state e = NotGenerated /\ exists r, make_request hash prelude incs extra (en_config e) = Done r /\ In f (reads r (en_config e)).
Proof.
  unfold generate, read_by. intros G f. destruct (en_state e); cbn [snd] in G; try discriminate; [|split; [intros []|intros [X _]; discriminate]].
  destruct (make_request hash prelude incs extra (en_config e)) as [r|x|] eqn:R.
  - assert (K : In f (reads r (en_config e)) <-> NotGenerated = NotGenerated /\ exists r0, Done r = Done r0 /\ In f (reads r0 (en_config e))).
    { split; [intros I; split; [reflexivity|exists r; auto]|]. intros (_ & r0 & X & I). injection X as <-. exact I. }
    destruct (cf_policy (en_config e)), nightly; first [exact K|discriminate G].
  - destruct (cf_policy (en_config e)), nightly; discriminate G.
  - destruct (cf_policy (en_config e)), nightly; discriminate G.
Qed.

(** When the generation for a file succeeds, cargo has been told of every file which bindgen read for the request of any block which is generated, and of nothing else; of each once,
    whichever blocks include it. *)
Theorem c96_cargo :
  forall pf pf' u, resolve_all gen pf = (pf', POk u) ->
    let s := all cargo_recorder cargo_record (get_autocxxes pf) [] cargo_new in
    NoDup (cr_printed s)
    /\ forall t, In t (cr_printed s) <-> exists e r f, In e (get_autocxxes pf) /\ en_state e = NotGenerated /\
         make_request hash prelude incs extra (en_config e) = Done r /\ In f (reads r (en_config e)) /\ t = "cargo:rerun-if-changed=" +++ f.
Proof.
  intros pf pf' u H s. destruct (c38_names_distinct _ _ _ _ H) as [N F].
  destruct (all_fold cargo_recorder cargo_record (get_autocxxes pf) [] cargo_new) as (l1 & l2 & E & R & O).
  assert (l2 = []).
  { destruct O as [O|[(x & _ & [])|[O|(e & I & G)]]]; [exact O|destruct (O N)|]. exfalso.
    assert (I' : In e (get_autocxxes pf)) by (rewrite E; apply in_app_iff; auto). destruct (Forall2_in_l _ _ _ _ F I') as (e' & _ & v & Ge). apply (G v). rewrite Ge. reflexivity. }
  subst l2. rewrite app_nil_r in E. subst l1. unfold s. rewrite R.
  destruct (cargo_fold (flat_map read (get_autocxxes pf)) cargo_new (NoDup_nil _) eq_refl) as (A & B & C & _).
  rewrite B. split.
  - apply FinFun.Injective_map_NoDup; [|exact A]. intros x y X. unfold line in X. apply sapp_inj_l in X. exact X.
  - assert (RG : forall e f, In e (get_autocxxes pf) -> In f (read e) <->
      en_state e = NotGenerated /\ exists r, make_request hash prelude incs extra (en_config e) = Done r /\ In f (reads r (en_config e))).
    { intros e f I. destruct (Forall2_in_l _ _ _ _ F I) as (e' & _ & v & Ge). apply (read_generated e v). rewrite Ge. reflexivity. }
    intros t. rewrite in_map_iff. split.
    + intros (f & <- & I). apply C in I. destruct I as [[]|I]. apply in_flat_map in I. destruct I as (e & I & J). apply (RG e f I) in J. destruct J as (Z & r & R1 & J).
      exists e, r, f. auto.
    + intros (e & r & f & I & Z & R1 & J & ->). assert (J' : In f (read e)) by (apply (RG e f I); eauto). clear J. rename J' into J. exists f. split; [reflexivity|]. apply C. right. apply in_flat_map. exists e. auto.
Qed.

(** Even when generation fails, each file is printed at most once, and the files read for the block which failed first are printed too, so that changing them makes cargo try again. *)
Theorem c96_failure :
  forall l1 e l2, NoDup (names (l1 ++ e :: l2)) -> (forall e', In e' l1 -> exists u, snd (gen e') = Done u) ->
    let s := all cargo_recorder cargo_record (l1 ++ e :: l2) [] cargo_new in
    NoDup (cr_printed s) /\ forall e' f, In e' (l1 ++ [e]) -> In f (read e') -> In ("cargo:rerun-if-changed=" +++ f) (cr_printed s).
Proof.
  intros l1 e l2 N D s.
  assert (X : exists l3, s = fold_left cargo_record (flat_map read (l1 ++ [e]) ++ l3) cargo_new).
  { unfold s. assert (K : forall l found s0, NoDup (names l ++ found) -> (exists p q, l = p ++ e :: q /\ forall e', In e' p -> exists u, snd (gen e') = Done u) ->
      forall p q, l = p ++ e :: q -> (forall e', In e' p -> exists u, snd (gen e') = Done u) -> exists l3, all cargo_recorder cargo_record l found s0 = fold_left cargo_record (flat_map read (p ++ [e]) ++ l3) s0).
    { clear. induction l as [|x l IH]; intros found s0 N _ p q E D; [destruct p; discriminate|].
      cbn [record_all]. cbn [names map app] in N. inversion N as [|? ? NI N']. destruct (smem (get_mod_name (en_config x)) found) eqn:M.
      - apply smem_In in M. destruct NI. apply in_app_iff. right. exact M.
      - destruct p as [|y p]; cbn [app] in E; injection E as <- E.
        + cbn [app flat_map]. rewrite app_nil_r. destruct (snd (gen x)) as [u|z|].
          * destruct (all_fold cargo_recorder cargo_record l (get_mod_name (en_config x) :: found) (fold_left cargo_record (read x) s0)) as (a & b & _ & R & _).
            exists (flat_map read a). rewrite fold_left_app. exact R.
          * exists []. rewrite app_nil_r. reflexivity.
          * exists []. rewrite app_nil_r. reflexivity.
        + destruct (D x (or_introl eq_refl)) as [u U]. rewrite U.
          destruct (IH (get_mod_name (en_config x) :: found) (fold_left cargo_record (read x) s0)) with (p := p) (q := q) as [l3 R].
          * apply (NoDup_Add (l := names l ++ found) (a := get_mod_name (en_config x))); [apply Add_app|]. split; assumption.
          * exists p, q. split; [exact E|]. intros e' I. apply D. right. exact I.
          * exact E.
          * intros e' I. apply D. right. exact I.
          * exists l3. cbn [app flat_map]. rewrite <- app_assoc, (fold_left_app cargo_record (read x)). exact R. }
    apply (K (l1 ++ e :: l2) [] cargo_new) with (q := l2); [rewrite app_nil_r; exact N|exists l1, l2; auto|reflexivity|exact D]. }
  destruct X as [l3 ->]. destruct (cargo_fold (flat_map read (l1 ++ [e]) ++ l3) cargo_new (NoDup_nil _) eq_refl) as (A & B & C & _). rewrite B. split.
  - apply FinFun.Injective_map_NoDup; [|exact A]. intros x y X. unfold line in X. apply sapp_inj_l in X. exact X.
  - intros e' f I J. apply in_map_iff. exists f. split; [reflexivity|]. apply C. right. apply in_app_iff. left. apply in_flat_map. exists e'. auto.
Qed.

(** With a dependency file, the files read for all blocks are added to what is already there, in order; the run panics exactly if one of them has no relative path. *)
Theorem c96_depfile :
  forall pf pf' u d, resolve_all gen pf = (pf', POk u) ->
    let files := flat_map read (get_autocxxes pf) in
    match all (option depfile) (depfile_record relativize) (get_autocxxes pf) [] (Some d) with
    | Some d' => df_outputs d' = df_outputs d /\ exists rs, df_deps d' = df_deps d ++ rs /\ Forall2 (fun f r => relativize f = Some r) files rs
    | None => exists f, In f files /\ relativize f = None
    end.
Proof.
  intros pf pf' u d H files. destruct (c38_names_distinct _ _ _ _ H) as [N F].
  destruct (all_fold (option depfile) (depfile_record relativize) (get_autocxxes pf) [] (Some d)) as (l1 & l2 & E & R & O).
  assert (l2 = []).
  { destruct O as [O|[(x & _ & [])|[O|(e & I & G)]]]; [exact O|destruct (O N)|]. exfalso.
    assert (I' : In e (get_autocxxes pf)) by (rewrite E; apply in_app_iff; auto). destruct (Forall2_in_l _ _ _ _ F I') as (e' & _ & v & Ge). apply (G v). rewrite Ge. reflexivity. }
  subst l2. rewrite app_nil_r in E. subst l1. rewrite R. fold files. clearbody files. clear. revert d. induction files as [|f fs IH]; intros d; cbn [fold_left].
  - split; [reflexivity|]. exists []. rewrite app_nil_r. auto.
  - cbn [depfile_record]. unfold add_dependency. destruct (relativize f) as [r|] eqn:Q.
    + specialize (IH (Depfile (df_outputs d) (df_deps d ++ [r]))). destruct (fold_left _ fs _) as [d'|].
      * destruct IH as (A & rs & B & C). cbn in A, B. split; [exact A|]. exists (r :: rs). rewrite B, <- app_assoc. auto.
      * destruct IH as (g & I & J). exists g. cbn. auto.
    + assert (Z : fold_left (depfile_record relativize) fs None = None) by (clear; induction fs; auto). rewrite Z. exists f. cbn. auto.
Qed.
End Recording.
Print Assumptions c96_cargo.
Print Assumptions c96_failure.
Print Assumptions c96_depfile.

(** Three blocks which read a header in common: one is printed for all. *)
Example c96_case :
  exists pf, parse_file_contents (fun _ s => s) true (blocks_case "x" "y") = POk pf
    /\ let g := generate (fun _ => "h") false "" (fun _ _ => Done (Conversion "" None "")) [] [] in
       snd (resolve_all g pf) = POk tt
    /\ cr_printed (record_all (fun _ => "h") false "" (fun _ _ => Done (Conversion "" None "")) (fun _ c => ["common.h"; get_mod_name c +++ ".h"]) [] [] _ cargo_record (get_autocxxes pf) [] cargo_new)
       = ["cargo:rerun-if-changed=common.h"; "cargo:rerun-if-changed=ffi.h"; "cargo:rerun-if-changed=x.h"; "cargo:rerun-if-changed=y.h"].
Proof. eexists. split; [vm_compute; reflexivity|]. split; vm_compute; reflexivity. Qed.
