(** The macro includes what the build script wrote (C35), and finds the bindings which were put in an archive (C37). *)
From Verif Require Import Base ConfigModel ConfigProofs DiscoverModel DiscoverProps EngineModel ParseFileModel ParseFileProps LocationsModel.
Local Open Scope list_scope.

(** ** Notions *)

(** The place a path means: the names on the way from the root. *)
Fixpoint split_slash (s : string) : list string :=
  match s with
  | EmptyString => [""]
  | String c r =>
      if Ascii.eqb c "/" then "" :: split_slash r
      else match split_slash r with p :: ps => String c p :: ps | [] => [String c ""] end
  end.
Definition comps (s : string) : list string := filter (fun p => negb (String.eqb p "" || String.eqb p ".")) (split_slash s).
Definition place (base p : string) : list string := if absolute p then comps p else comps base ++ comps p.

(** The files of a machine. *)
Definition disk := list string -> option string.
Definition places_dec (a b : list string) : {a = b} + {a <> b} := list_eq_dec string_dec a b.
Definition put_file (base : string) (w : string * string) (d : disk) : disk :=
  fun q => if places_dec q (place base (fst w)) then Some (snd w) else d q.
Definition put_files (base : string) (ws : list (string * string)) (d : disk) : disk := fold_left (fun d w => put_file base w d) ws d.

(** What the compiler reads in place of the macro. A path which is not absolute starts at the directory of the source file; OUT_DIR is the compiler's. *)
Definition compiled (d : disk) (src : string) (out_dir : option string) (x : expansion) : option string :=
  match x with
  | ExNothing => Some ""
  | ExInclude p => d (place src p)
  | ExOutDir p => match out_dir with Some o => d (place src (o +++ p)) | None => None end
  | ExTokens t => Some t
  end.

(** The environment of the macro: that of the build script with AUTOCXX_RS as cargo was told. *)
Definition macro_env (e : env) (v : option string) : env :=
  match v with None => e | Some d => Env (ev_archive e) (ev_rs_file e) (Some d) (ev_out_dir e) end.

(** The name of a module is an identifier. *)
Definition plain (s : string) : Prop := all_chars (fun c => negb (Ascii.eqb c "-") && negb (Ascii.eqb c "/")) s = true.
Definition plain_name (c : config) : Prop := forall m, cf_mod_name c = Some m -> plain m.

(** ** Lemmas *)

Lemma split_slash_cons s : exists p ps, split_slash s = p :: ps.
Proof. destruct s as [|c s]; [cbn; eauto|]. cbn. destruct (Ascii.eqb c "/"); [eauto|]. destruct (split_slash s); eauto. Qed.
Lemma split_slash_app a b : split_slash (a +++ String "/" b) = split_slash a ++ split_slash b.
Proof.
  induction a as [|c a IH]; [reflexivity|]. cbn [append split_slash]. rewrite IH. destruct (Ascii.eqb c "/"); [reflexivity|].
  destruct (split_slash_cons a) as (p & ps & ->). reflexivity.
Qed.
Lemma comps_app a b : comps (a +++ "/" +++ b) = comps a ++ comps b.
Proof. unfold comps. change ("/" +++ b) with (String "/" b). rewrite split_slash_app. apply filter_app. Qed.
Lemma absolute_app a b : a <> "" -> absolute (a +++ b) = absolute a.
Proof. destruct a as [|c a]; [congruence|]. intros _. unfold absolute. cbn [append]. rewrite !starts_with_cons. f_equal. unfold starts_with. destruct a, b; reflexivity. Qed.
Lemma jpath_comps a b : absolute b = false -> a <> "" -> comps (jpath a b) = comps a ++ comps b /\ absolute (jpath a b) = absolute a /\ jpath a b <> "".
Proof.
  intros B N. unfold jpath. rewrite B. destruct (String.eqb_spec a "") as [E|_]; [contradiction|]. 
  destruct (ends_with "/" a) eqn:E; (split; [|split; [apply absolute_app; exact N|destruct a; [congruence|discriminate]]]).
  - apply ends_with_spec in E as [t ->]. rewrite sapp_assoc, comps_app. f_equal. change (t +++ "/") with (t +++ "/" +++ ""). rewrite comps_app. cbn. rewrite app_nil_r. reflexivity.
  - apply comps_app.
Qed.

Lemma no_slash_split s : all_chars (fun c => negb (Ascii.eqb c "/")) s = true -> split_slash s = [s].
Proof.
  induction s as [|c s IH]; [reflexivity|]. cbn. intros H. apply andb_true_iff in H as [H1 H2]. rewrite (IH H2). destruct (Ascii.eqb c "/"); [discriminate H1|reflexivity].
Qed.
Lemma all_chars_imp (p q : ascii -> bool) s : (forall c, p c = true -> q c = true) -> all_chars p s = true -> all_chars q s = true.
Proof. intros I. induction s as [|c s IH]; [reflexivity|]. cbn. intros H. apply andb_true_iff in H as [H1 H2]. rewrite (I c H1), (IH H2). reflexivity. Qed.
Lemma filename_comps c : plain_name c -> comps (get_rs_filename c) = [get_rs_filename c] /\ absolute (get_rs_filename c) = false.
Proof.
  intros P. split; [|reflexivity]. unfold comps. rewrite no_slash_split; [reflexivity|].
  unfold get_rs_filename. rewrite !all_chars_app. cbn [all_chars]. destruct (cf_mod_name c) as [m|] eqn:M; [|reflexivity].
  specialize (P m M). unfold plain in P. rewrite (all_chars_imp _ (fun c => negb (Ascii.eqb c "/")) m) with (2 := P); [reflexivity|].
  intros x X. apply andb_true_iff in X. tauto.
Qed.

Lemma put_files_other base ws : forall d q, ~ In q (map (fun w => place base (fst w)) ws) -> put_files base ws d q = d q.
Proof.
  unfold put_files. induction ws as [|w ws IH]; intros d q N; [reflexivity|]. cbn [fold_left]. rewrite IH; [|intros I; apply N; right; exact I].
  unfold put_file. destruct (places_dec q (place base (fst w))) as [E|_]; [|reflexivity]. destruct N. left. symmetry. exact E.
Qed.
Lemma put_files_in base ws : forall d w, NoDup (map (fun w => place base (fst w)) ws) -> In w ws -> put_files base ws d (place base (fst w)) = Some (snd w).
Proof.
  induction ws as [|v ws IH]; intros d w N I; [destruct I|]. cbn in N. inversion N as [|x y NI N']; subst.
  change (put_files base (v :: ws) d) with (put_files base ws (put_file base v d)). destruct I as [->|I]; [|exact (IH _ _ N' I)].
  rewrite put_files_other; [|exact NI]. unfold put_file. destruct (places_dec _ _); [reflexivity|congruence].
Qed.

(** Files of different names in one directory. *)
Lemma dir_places base dir outs : dir <> "" -> (forall ct, In ct outs -> plain_name (fst ct)) -> NoDup (map (fun ct : config * string => get_rs_filename (fst ct)) outs) ->
  NoDup (map (fun w => place base (fst w)) (map (fun ct : config * string => (jpath dir (get_rs_filename (fst ct)), snd ct)) outs)).
Proof.
  intros ND P N. rewrite map_map. cbn [fst]. induction outs as [|ct outs IH]; [constructor|]. cbn [map] in N. inversion N as [|x y NI N']; subst. cbn [map].
  constructor; [|apply IH; [intros k K; apply P; right; exact K|exact N']]. intros I. apply NI. apply in_map_iff in I as (k & E & K). apply in_map_iff. exists k. split; [|exact K].
  destruct (filename_comps (fst ct) (P _ (or_introl eq_refl))) as [C1 A1]. destruct (filename_comps (fst k) (P _ (or_intror K))) as [C2 A2].
  destruct (jpath_comps dir _ A1 ND) as (J1 & B1 & _). destruct (jpath_comps dir _ A2 ND) as (J2 & B2 & _).
  unfold place in E. rewrite J1, J2, B1, B2, C1, C2 in E.
  assert (G : (comps dir ++ [get_rs_filename (fst k)] = comps dir ++ [get_rs_filename (fst ct)])).
  { destruct (absolute dir); [exact E|]. apply app_inv_head in E. exact E. }
  apply app_inv_head in G. exact (f_equal (hd "") G).
Qed.

(** ** C35 *)

Section Macro.
Variable hash : config -> string.
Variable tokens : string -> bool.
Variable open : string -> option string.
Variable of_json : string -> option multi_bindings.

(** The code for a block with this file name is what the compiler reads, wherever the macro is. *)
Definition agrees (d : disk) (e : env) (out_dir : option string) (c0 : config) (t : string) : Prop :=
  exists x, generate_rs hash tokens open of_json e c0 = Done x /\ forall src, compiled d src out_dir x = Some t.

(** The build script was given a directory. *)
Theorem c35_custom_directory :
  forall e dir outs cwd out_dir, absolute dir = true -> ev_archive e = None -> ev_rs_file e = None ->
    (forall ct, In ct outs -> plain_name (fst ct)) -> NoDup (map (fun ct => get_rs_filename (fst ct)) outs) ->
    exists ws v, build_rs e (Some dir) outs = Done (ws, v) /\
      forall c t c0 d, In (c, t) outs -> get_rs_filename c0 = get_rs_filename c -> cf_parse_only c0 = false ->
        agrees (put_files cwd ws d) (macro_env e v) out_dir c0 t.
Proof.
  intros e dir outs cwd od AB A F P N. assert (ND : dir <> "") by (intros ->; discriminate AB).
  destruct (jpath_comps dir "rs" eq_refl ND) as (JC & JA & JN).
  eexists _, _. split; [reflexivity|]. intros c t c0 d I FN PO. exists (ExInclude (jpath (jpath dir "rs") (get_rs_filename c0))). split.
  - unfold generate_rs. rewrite PO. unfold new_strategy, macro_env. cbn. rewrite A, F. reflexivity.
  - intros src. cbn [compiled]. rewrite FN. destruct (filename_comps c (P _ I)) as [FC FA].
    destruct (jpath_comps (jpath dir "rs") _ FA JN) as (KC & KA & _).
    replace (place src (jpath (jpath dir "rs") (get_rs_filename c))) with (place cwd (jpath (jpath dir "rs") (get_rs_filename c)))
      by (unfold place; rewrite KA, JA, AB; reflexivity).
    apply (put_files_in cwd (map (fun ct => (jpath (jpath dir "rs") (get_rs_filename (fst ct)), snd ct)) outs) d (jpath (jpath dir "rs") (get_rs_filename c), t)).
    + apply dir_places; assumption.
    + apply in_map_iff. exists (c, t). split; [reflexivity|exact I].
Qed.

(** The build script was given no directory and cargo's OUT_DIR is used. The macro may run without OUT_DIR, but the compiler has it. *)
Theorem c35_out_dir :
  forall e o outs cwd, ev_archive e = None -> ev_rs_file e = None -> ev_rs e = None -> ev_out_dir e = Some o -> absolute o = true ->
    (forall ct, In ct outs -> plain_name (fst ct)) -> NoDup (map (fun ct => get_rs_filename (fst ct)) outs) ->
    exists ws, build_rs e None outs = Done (ws, None) /\
      forall c t c0 d mo, In (c, t) outs -> get_rs_filename c0 = get_rs_filename c -> cf_parse_only c0 = false ->
        agrees (put_files cwd ws d) (Env None None None mo) (Some o) c0 t.
Proof.
  intros e o outs cwd A F R O AB P N. assert (ND : o <> "") by (intros ->; discriminate AB).
  destruct (jpath_comps o "autocxx-build-dir" eq_refl ND) as (JC & JA & JN).
  destruct (jpath_comps (jpath o "autocxx-build-dir") "rs" eq_refl JN) as (KC & KA & KN).
  eexists. split; [unfold build_rs, new_strategy; rewrite A, F, R, O; reflexivity|]. intros c t c0 d mo I FN PO.
  exists (ExOutDir ("/autocxx-build-dir/rs/" +++ get_rs_filename c0)). split; [unfold generate_rs; rewrite PO; destruct mo; reflexivity|].
  intros src. cbn [compiled]. rewrite FN. destruct (filename_comps c (P _ I)) as [FC FA].
  destruct (jpath_comps _ _ FA KN) as (LC & LA & _).
  replace (place src (o +++ "/autocxx-build-dir/rs/" +++ get_rs_filename c)) with (place cwd (jpath (jpath (jpath o "autocxx-build-dir") "rs") (get_rs_filename c))).
  - apply (put_files_in cwd (map (fun ct => (jpath (jpath (jpath o "autocxx-build-dir") "rs") (get_rs_filename (fst ct)), snd ct)) outs) d (jpath (jpath (jpath o "autocxx-build-dir") "rs") (get_rs_filename c), t)).
    + apply dir_places; assumption.
    + apply in_map_iff. exists (c, t). split; [reflexivity|exact I].
  - unfold place. rewrite LA, KA, JA, AB, (absolute_app _ _ ND), AB, LC, KC, JC.
    change ("/autocxx-build-dir/rs/" +++ get_rs_filename c) with ("/" +++ ("autocxx-build-dir" +++ "/" +++ ("rs" +++ "/" +++ get_rs_filename c))).
    rewrite (comps_app o), (comps_app "autocxx-build-dir"), (comps_app "rs"), FC, <- !app_assoc. reflexivity.
Qed.
End Macro.
Print Assumptions c35_custom_directory.
Print Assumptions c35_out_dir.

(** With AUTOCXX_RS in the environment of both, the build script writes below the directory "rs" of that directory and the macro reads
    from the directory itself. *)
Theorem c35_same_autocxx_rs_refuted :
  exists e c t ws v, ev_archive e = None /\ ev_rs_file e = None /\ cf_parse_only c = false /\ plain_name c
    /\ build_rs e None [(c, t)] = Done (ws, v)
    /\ forall hash tokens open of_json cwd out_dir, ~ agrees hash tokens open of_json (put_files cwd ws (fun _ => None)) (macro_env e v) out_dir c t.
Proof.
  exists (Env None None (Some "/d") (Some "/o")), default_config, "code". eexists _, _. split; [reflexivity|]. split; [reflexivity|]. split; [reflexivity|].
  split; [intros m M; discriminate M|]. split; [reflexivity|]. intros hash tokens open of_json cwd od (x & G & C). vm_compute in G. injection G as <-.
  specialize (C ""). vm_compute in C. discriminate C.
Qed.
Print Assumptions c35_same_autocxx_rs_refuted.

(** A directory which is not absolute is taken from where the build script runs when it is written, and from the directory of the source file when it is read. *)
Theorem c35_relative_directory_refuted :
  exists dir c t ws v, build_rs (Env None None None (Some "/o")) (Some dir) [(c, t)] = Done (ws, v) /\ cf_parse_only c = false /\ plain_name c
    /\ forall hash tokens open of_json,
       exists x, generate_rs hash tokens open of_json (macro_env (Env None None None (Some "/o")) v) c = Done x
         /\ compiled (put_files "/crate" ws (fun _ => None)) "/crate/src" (Some "/o") x = None.
Proof.
  exists "gen", default_config, "code". eexists _, _. split; [reflexivity|]. split; [reflexivity|]. split; [intros m M; discriminate M|].
  intros. eexists. split; [reflexivity|]. vm_compute. reflexivity.
Qed.
Print Assumptions c35_relative_directory_refuted.

Definition named (m : string) : config := set_mod_name (Some m) default_config.
Example c35_case :
  build_rs (Env None None (Some "/elsewhere") None) (Some "/d/") [(default_config, "one"); (named "x", "two")]
    = Done ([("/d/rs/autocxx-ffi-default-gen.rs", "one"); ("/d/rs/autocxx-x-gen.rs", "two")], Some "/d/rs")
  /\ agrees (fun _ => "") (fun _ => true) (fun _ => None) (fun _ => None)
       (put_files "/" [("/d/rs/autocxx-ffi-default-gen.rs", "one"); ("/d/rs/autocxx-x-gen.rs", "two")] (fun _ => None)) (Env None None (Some "/d/rs") None) None (named "x") "two".
Proof. split; [reflexivity|]. eexists. split; [reflexivity|]. intros src. vm_compute. reflexivity. Qed.
Example c35_case_plain : plain_name (named "x") /\ NoDup (map get_rs_filename [default_config; named "x"]).
Proof.
  split; [intros m M; injection M as <-; reflexivity|]. constructor; [|constructor; [intros []|constructor]]. intros [E|[]]. discriminate E.
Qed.

(** ** From the source file to the compiler *)

Lemma grown_name e0 e : grown e0 e -> cf_mod_name (en_config e) = cf_mod_name (en_config e0).
Proof. intros (_ & a & subs & tys & funs & _ & ->). reflexivity. Qed.
Lemma grown_filename e0 e : grown e0 e -> get_rs_filename (en_config e) = get_rs_filename (en_config e0).
Proof. intros G. unfold get_rs_filename. rewrite (grown_name _ _ G). reflexivity. Qed.
Lemma file_engines ws auto items pf : parse_file_contents ws auto items = POk pf ->
  (forall ts, In (SrcBlock ts) (flat_map sources items) -> exists e0 e, engine_parse ts = Done e0 /\ grown e0 e /\ In e (get_autocxxes pf))
  /\ (forall e, In e (get_autocxxes pf) -> exists e0, grown e0 e /\ (e0 = new_for_autodiscover \/ exists ts, In (SrcBlock ts) (flat_map sources items) /\ engine_parse ts = Done e0)).
Proof.
  intros H. destruct (c38_every_block_once _ _ _ _ H) as (bs & fake & _ & F & FK & ->). split.
  - intros ts I. clear FK H. induction F as [|s b ss bs M F IH]; [destruct I|]. destruct I as [->|I].
    + destruct b as [e|]; [|destruct M]. destruct M as (e0 & EP & G). exists e0, e. split; [exact EP|]. split; [exact G|]. left. reflexivity.
    + destruct (IH I) as (e0 & e & EP & G & J). exists e0, e. split; [exact EP|]. split; [exact G|]. unfold engines_of in *. cbn [flat_map]. rewrite <- app_assoc. apply in_app_iff. right. exact J.
  - intros e I. apply in_app_iff in I as [I|I].
    + clear FK H. induction F as [|s b ss bs M F IH]; [destruct I|]. unfold engines_of in I. cbn [flat_map] in I. apply in_app_iff in I as [I|I].
      * destruct b as [f|]; [|destruct I]. destruct I as [->|[]]. destruct s as [ts|]; [|destruct M]. destruct M as (e0 & EP & G). exists e0. split; [exact G|]. right. exists ts. split; [left; reflexivity|exact EP].
      * destruct (IH I) as (e0 & G & [->|(ts & J & EP)]); [exists new_for_autodiscover; auto|]. exists e0. split; [exact G|]. right. exists ts. split; [right; exact J|exact EP].
    + destruct FK as [->|(f & -> & G)]; [destruct I|]. destruct I as [<-|[]]. exists new_for_autodiscover. split; [exact G|]. left. reflexivity.
Qed.

Section File.
Variables (hash : config -> string) (nightly : bool) (prelude : string) (convert : request -> config -> outcome conversion) (incs extra : list string).
Variable print_mod : string -> string -> string.
Let gen := generate hash nightly prelude convert incs extra.
Lemma gen_done e e' u : gen e = (e', Done u) -> en_config e' = en_config e /\ exists o, get_rs_output e' = Done o.
Proof.
  unfold gen, generate. destruct (en_state e) eqn:S.
  - assert (K : forall r, (match r with Panics => (e, Panics) | Fails x => (e, Fails x) | Done r =>
              match convert r (en_config e) with
              | Panics => (e, Panics)
              | Fails x => (e, Fails x)
              | Done v => (Engine (en_config e) (Generated (Generation (get_mod_name (en_config e)) (cv_items v) (cv_cpp v) incs (cv_header_name v))), Done tt)
              end end) = (e', Done u) -> en_config e' = en_config e /\ exists o, get_rs_output e' = Done o).
    { intros [r|x|] H; try discriminate H. destruct (convert r (en_config e)); try discriminate H. injection H as <- <-. split; [reflexivity|]. eexists. reflexivity. }
    destruct (cf_policy (en_config e)), nightly; try discriminate; apply K.
  - intros H. injection H as <- <-. split; [reflexivity|]. unfold get_rs_output. rewrite S. eauto.
  - discriminate.
Qed.
Lemma outputs_ok es es' : Forall2 (fun e e' => exists u, gen e = (e', Done u)) es es' ->
  exists outs, rs_outputs print_mod es' = Done outs
    /\ map fst outs = map en_config es
    /\ (forall e, In e es -> exists e' o, gen e = (e', Done tt) /\ get_rs_output e' = Done o /\ In (en_config e, rs_text print_mod o) outs).
Proof.
  induction 1 as [|e e' es es' [u G] F (outs & R & M & S)]; [exists []; split; [reflexivity|]; split; [reflexivity|intros e []]|].
  destruct (gen_done _ _ _ G) as [C [o O]]. cbn [rs_outputs]. rewrite O, R. eexists. split; [reflexivity|]. split; [cbn; rewrite C, M; reflexivity|].
  intros f [<-|I].
  - destruct u. exists e', o. split; [exact G|]. split; [exact O|]. left. rewrite C. reflexivity.
  - destruct (S f I) as (f' & o' & GF & OF & J). exists f', o'. split; [exact GF|]. split; [exact OF|]. right. exact J.
Qed.

(** The hypotheses of both theorems below: a file which can be parsed and for which everything is generated, with identifiers as names. *)
Definition built (ws : self_type -> signature -> signature) (auto : bool) (items : list item) (pf pf' : list segment) : Prop :=
  parse_file_contents ws auto items = POk pf /\ resolve_all gen pf = (pf', POk tt)
  /\ forall ts e0, In (SrcBlock ts) (flat_map sources items) -> engine_parse ts = Done e0 -> plain_name (en_config e0).
Lemma built_outputs ws auto items pf pf' : built ws auto items pf pf' ->
  exists outs, rs_outputs print_mod (get_autocxxes pf') = Done outs
    /\ (forall ct, In ct outs -> plain_name (fst ct)) /\ NoDup (map (fun ct => get_rs_filename (fst ct)) outs)
    /\ (forall e, In e (get_autocxxes pf) -> exists e' o, gen e = (e', Done tt) /\ get_rs_output e' = Done o /\ In (en_config e, rs_text print_mod o) outs)
    /\ map fst outs = map en_config (get_autocxxes pf).
Proof.
  intros (PF & RA & PN). destruct (c38_names_distinct _ _ _ _ RA) as [_ F]. destruct (outputs_ok _ _ F) as (outs & R & M & S). exists outs. split; [exact R|].
  assert (PE : forall e, In e (get_autocxxes pf) -> plain_name (en_config e)).
  { intros e I. destruct (proj2 (file_engines _ _ _ _ PF) e I) as (e0 & G & [->|(ts & J & EP)]); intros m X; rewrite (grown_name _ _ G) in X; [discriminate X|]. exact (PN _ _ J EP m X). }
  split.
  - intros ct I. assert (J : In (fst ct) (map en_config (get_autocxxes pf))) by (rewrite <- M; apply in_map; exact I). apply in_map_iff in J as (e & <- & J). exact (PE e J).
  - split; [|auto]. replace (map (fun ct => get_rs_filename (fst ct)) outs) with (map (fun e => get_rs_filename (en_config e)) (get_autocxxes pf)).
    + eapply c38_files_distinct; [exact RA|]. intros e m I X. specialize (PE e I m X). eapply all_chars_imp; [|exact PE]. intros c C. apply andb_true_iff in C. tauto.
    + transitivity (map get_rs_filename (map fst outs)); [rewrite M, map_map; reflexivity|apply map_map].
Qed.

Variables (tokens : string -> bool) (open : string -> option string) (of_json : string -> option multi_bindings).

(** For every block of the file, at any depth, the compiler reads the code which was generated for it. *)
Theorem c35_file_custom_directory :
  forall ws auto items pf pf' e dir cwd out_dir, built ws auto items pf pf' ->
    absolute dir = true -> ev_archive e = None -> ev_rs_file e = None ->
    exists outs files v, rs_outputs print_mod (get_autocxxes pf') = Done outs /\ build_rs e (Some dir) outs = Done (files, v) /\
      forall ts e0, In (SrcBlock ts) (flat_map sources items) -> engine_parse ts = Done e0 -> cf_parse_only (en_config e0) = false ->
        exists en en' o, grown e0 en /\ In en (get_autocxxes pf) /\ gen en = (en', Done tt) /\ get_rs_output en' = Done o
          /\ forall d, agrees hash tokens open of_json (put_files cwd files d) (macro_env e v) out_dir (en_config e0) (rs_text print_mod o).
Proof.
  intros ws auto items pf pf' e dir cwd od B AB A F. destruct (built_outputs _ _ _ _ _ B) as (outs & R & P & N & S & _).
  destruct (c35_custom_directory hash tokens open of_json e dir outs cwd od AB A F P N) as (files & v & BR & AG). exists outs, files, v. split; [exact R|]. split; [exact BR|].
  intros ts e0 I EP PO. destruct B as (PF & _). destruct (proj1 (file_engines _ _ _ _ PF) ts I) as (e1 & en & EP1 & G & J). rewrite EP in EP1. injection EP1 as <-.
  destruct (S en J) as (en' & o & GE & O & IO). exists en, en', o. split; [exact G|]. split; [exact J|]. split; [exact GE|]. split; [exact O|].
  intros d. apply (AG (en_config en)); [exact IO|symmetry; apply grown_filename; exact G|exact PO].
Qed.
Theorem c35_file_out_dir :
  forall ws auto items pf pf' e o cwd mo, built ws auto items pf pf' ->
    ev_archive e = None -> ev_rs_file e = None -> ev_rs e = None -> ev_out_dir e = Some o -> absolute o = true ->
    exists outs files, rs_outputs print_mod (get_autocxxes pf') = Done outs /\ build_rs e None outs = Done (files, None) /\
      forall ts e0, In (SrcBlock ts) (flat_map sources items) -> engine_parse ts = Done e0 -> cf_parse_only (en_config e0) = false ->
        exists en en' out, grown e0 en /\ In en (get_autocxxes pf) /\ gen en = (en', Done tt) /\ get_rs_output en' = Done out
          /\ forall d, agrees hash tokens open of_json (put_files cwd files d) (Env None None None mo) (Some o) (en_config e0) (rs_text print_mod out).
Proof.
  intros ws auto items pf pf' e o cwd mo B A F RS O AB. destruct (built_outputs _ _ _ _ _ B) as (outs & R & P & N & S & _).
  destruct (c35_out_dir hash tokens open of_json e o outs cwd A F RS O AB P N) as (files & BR & AG). exists outs, files. split; [exact R|]. split; [exact BR|].
  intros ts e0 I EP PO. destruct B as (PF & _). destruct (proj1 (file_engines _ _ _ _ PF) ts I) as (e1 & en & EP1 & G & J). rewrite EP in EP1. injection EP1 as <-.
  destruct (S en J) as (en' & out & GE & OE & IO). exists en, en', out. split; [exact G|]. split; [exact J|]. split; [exact GE|]. split; [exact OE|].
  intros d. apply (AG (en_config en)); [exact IO|symmetry; apply grown_filename; exact G|exact PO].
Qed.
End File.
Print Assumptions c35_file_custom_directory.
Print Assumptions c35_file_out_dir.

Example c35_file_case :
  let conv := fun (_ : request) (c : config) => Done (Conversion (get_mod_name c) None "") in
  exists pf pf', built (fun _ => "") true "" conv [] [] (fun _ s => s) true (blocks_case "x" "y") pf pf'
    /\ rs_outputs (fun m i => m +++ ": " +++ i) (get_autocxxes pf') <> Panics
    /\ In (SrcBlock [TIdent "name"; TBang; TGroup [TIdent "x"]; TIdent "generate_all"; TBang; TGroup []]) (flat_map sources (blocks_case "x" "y")).
Proof.
  eexists _, _. split.
  - split; [vm_compute; reflexivity|]. split; [vm_compute; reflexivity|].
    intros ts e0 I EP. vm_compute in I. repeat (destruct I as [I|I]; [try discriminate I; injection I as <-; vm_compute in EP; injection EP as <-; intros m M; vm_compute in M; first [discriminate M|injection M as <-; reflexivity]|]). destruct I.
  - split; [vm_compute; discriminate|right; right; left; reflexivity].
Qed.

(** ** C37 *)

Section Archive.
Variable hash : config -> string.
Variable tokens : string -> bool.

Lemma sget_minsert_same {V} k (v : V) m : sget k (minsert k v m) = Some v.
Proof. induction m as [|[k' v'] m IH]; cbn; [rewrite String.eqb_refl; reflexivity|]. destruct (String.eqb_spec k' k) as [->|N]; cbn; [rewrite String.eqb_refl; reflexivity|]. destruct (String.eqb_spec k k') as [E|_]; [congruence|exact IH]. Qed.
Lemma sget_minsert_other {V} k k2 (v : V) m : k2 <> k -> sget k2 (minsert k v m) = sget k2 m.
Proof.
  intros N. induction m as [|[k' v'] m IH]; cbn; [destruct (String.eqb_spec k2 k); [contradiction|reflexivity]|].
  destruct (String.eqb_spec k' k) as [->|N']; cbn; [destruct (String.eqb_spec k2 k); [contradiction|reflexivity]|]. rewrite IH. reflexivity.
Qed.
Lemma archive_last outs c : forall m,
  match sget (hash c) (fold_left (fun m ct => mb_insert hash (fst ct) (snd ct) m) outs m) with
  | Some t => (exists l1 c' l2, outs = l1 ++ (c', t) :: l2 /\ hash c' = hash c /\ forall d u, In (d, u) l2 -> hash d <> hash c)
              \/ (sget (hash c) m = Some t /\ forall d u, In (d, u) outs -> hash d <> hash c)
  | None => sget (hash c) m = None /\ forall d u, In (d, u) outs -> hash d <> hash c
  end.
Proof.
  induction outs as [|[d u] outs IH]; intros m; cbn [fold_left fst snd]; [destruct (sget (hash c) m) eqn:E; [right|]; (split; [reflexivity || exact E|intros x y []])|].
  specialize (IH (mb_insert hash d u m)). destruct (string_dec (hash d) (hash c)) as [E|N].
  - destruct (sget (hash c) (fold_left _ outs (mb_insert hash d u m))) as [t|].
    + destruct IH as [(l1 & c' & l2 & -> & H & L)|[G L]]; left; [exists ((d, u) :: l1), c', l2; auto|].
      unfold mb_insert in G. rewrite E, sget_minsert_same in G. injection G as <-. exists [], d, outs. auto.
    + destruct IH as [G _]. unfold mb_insert in G. rewrite E, sget_minsert_same in G. discriminate G.
  - assert (X : sget (hash c) (mb_insert hash d u m) = sget (hash c) m) by (apply sget_minsert_other; congruence). rewrite X in IH.
    destruct (sget (hash c) (fold_left _ outs (mb_insert hash d u m))) as [t|].
    + destruct IH as [(l1 & c' & l2 & -> & H & L)|[G L]]; [left; exists ((d, u) :: l1), c', l2; auto|]. right. split; [exact G|]. intros x y [I|I]; [injection I as <- <-; exact N|exact (L x y I)].
    + destruct IH as [G L]. split; [exact G|]. intros x y [I|I]; [injection I as <- <-; exact N|exact (L x y I)].
Qed.

(** A lookup returns the bindings which were put in last under the same hash, and says so if there are none. *)
Theorem c37_last_with_hash :
  forall outs c,
    (forall t, mb_get hash tokens c (rs_archive hash outs) = inl t ->
       tokens t = true /\ exists l1 c' l2, outs = l1 ++ (c', t) :: l2 /\ hash c' = hash c /\ forall d u, In (d, u) l2 -> hash d <> hash c)
    /\ (mb_get hash tokens c (rs_archive hash outs) = inr MissingBindings <-> forall d u, In (d, u) outs -> hash d <> hash c).
Proof.
  intros outs c. unfold mb_get, rs_archive. assert (L := archive_last outs c []). destruct (sget (hash c) _) as [t|].
  - destruct L as [(l1 & c' & l2 & -> & H & L)|[G _]]; [|discriminate G]. split.
    + intros u U. destruct (tokens t) eqn:T; [|discriminate U]. injection U as <-. split; [exact T|]. exists l1, c', l2. auto.
    + split; [destruct (tokens t); discriminate|]. intros N. destruct (N c' t); [apply in_app_iff; right; left; reflexivity|exact H].
  - split; [discriminate|]. split; [intros _; apply L|reflexivity].
Qed.

(** If the hashes of the configurations in the archive, and of the one looked up, differ, the lookup is exact. *)
Theorem c37_exact_without_collisions :
  forall outs, NoDup (map fst outs) -> (forall ct, In ct outs -> tokens (snd ct) = true) ->
    forall c, (forall d u, In (d, u) outs -> hash d = hash c -> d = c) ->
      (forall t, In (c, t) outs -> mb_get hash tokens c (rs_archive hash outs) = inl t)
      /\ ((forall t, ~ In (c, t) outs) -> mb_get hash tokens c (rs_archive hash outs) = inr MissingBindings).
Proof.
  intros outs ND TK c INJ. split.
  - intros t I. unfold mb_get, rs_archive. assert (L := archive_last outs c []). destruct (sget (hash c) _) as [u|].
    + destruct L as [(l1 & c' & l2 & E & H & L)|[G _]]; [|discriminate G].
      assert (J : In (c', u) outs) by (rewrite E; apply in_app_iff; right; left; reflexivity). assert (c' = c) as -> by exact (INJ _ _ J H).
      assert (u = t) as ->.
      { clear - ND I J. induction outs as [|ct outs IH]; [destruct I|]. cbn in ND. inversion ND as [|x y NI ND']; subst.
        destruct I as [->|I], J as [J|J]; [congruence| | |exact (IH ND' I J)].
        - destruct NI. apply in_map_iff. exists (c, u). auto.
        - subst ct. destruct NI. apply in_map_iff. exists (c, t). auto. }
      rewrite (TK (c, t) I : tokens t = true). reflexivity.
    + destruct L as [_ L]. destruct (L c t I eq_refl).
  - intros N. apply (proj2 (c37_last_with_hash outs c)). intros d u I E. rewrite (INJ d u I E) in I. exact (N u I).
Qed.
End Archive.
Print Assumptions c37_last_with_hash.
Print Assumptions c37_exact_without_collisions.

(** A block which is found unchanged by the generator: it is in a module, or it says what to generate and nothing is discovered in the file. *)
Definition kept (ws : self_type -> signature -> signature) (auto : bool) (items : list item) (ts : list tok) (e0 : engine) : Prop :=
  (exists id l, In (IMod false id (Some l)) items /\ In (SrcBlock ts) (flat_map sources l))
  \/ (In (SrcBlock ts) (flat_map sources items) /\ ~ undecided (cf_allowlist (en_config e0))
      /\ (forall x, ~ found_in ws d_funs items x) /\ (forall x, ~ found_in ws d_types items x) /\ (forall x, ~ found_super items x)
      /\ (auto = true -> forall x, ~ found_in ws d_cpp items x)).
Lemma stands_in items segs i : Forall2 stands_for items segs -> In i items -> exists s, In s segs /\ stands_for i s.
Proof.
  induction 1 as [|j s items segs S F IH]; [intros []|]. intros [->|I]; [exists s; split; [left; reflexivity|exact S]|].
  destruct (IH I) as (t & J & SJ). exists t. split; [right; exact J|exact SJ].
Qed.
Lemma decided_in base pf s : Forall2 decided base pf -> In s base -> exists s', In s' pf /\ decided s s'.
Proof.
  induction 1 as [|a b base pf S F IH]; [intros []|]. intros [->|I]; [exists b; split; [left; reflexivity|exact S]|].
  destruct (IH I) as (t & J & SJ). exists t. split; [right; exact J|exact SJ].
Qed.
Lemma made_exactly_in ss bs ts e0 : Forall2 made_exactly ss bs -> In (SrcBlock ts) ss -> engine_parse ts = Done e0 -> In (BEngine e0) bs.
Proof.
  intros F I EP. induction F as [|s b ss bs M F IH]; [destruct I|]. destruct I as [->|I]; [|right; exact (IH I)].
  destruct b as [e|]; [|destruct M]. cbn in M. left. congruence.
Qed.
Lemma mod_engines m e : In (BEngine e) (get_cpp_buildables m) -> In e (seg_autocxxes (SMod m)).
Proof.
  intros I. cbn [seg_autocxxes]. fold (get_autocxxes m). rewrite engines_of_buildables. unfold engines_of. apply in_flat_map. exists (BEngine e). split; [exact I|left; reflexivity].
Qed.
Lemma kept_in ws auto items pf ts e0 : parse_file_contents ws auto items = POk pf -> engine_parse ts = Done e0 -> kept ws auto items ts e0 -> In e0 (get_autocxxes pf).
Proof.
  intros H EP K. destruct (c72_discoveries_go_to_one_block _ _ _ _ H) as (segs & ST & SH).
  assert (NESTED : forall id l, In (IMod false id (Some l)) items -> In (SrcBlock ts) (flat_map sources l) -> In e0 (get_autocxxes pf)).
  { intros id l I IT. destruct (stands_in _ _ _ ST I) as (s & IS & m & -> & F). assert (IB := mod_engines _ _ (made_exactly_in _ _ _ _ F IT EP)).
    assert (IP : In (SMod m) pf).
    { destruct SH as [(_ & _ & _ & _ & D)|(fake & l1 & e & e' & l2 & supers & cpp & _ & E & _ & _ & D & _)].
      - destruct (decided_in _ _ _ D IS) as (s' & J & DS). cbn in DS. subst s'. exact J.
      - assert (IS' : In (SMod m) (l1 ++ SAutocxx e' :: l2)).
        { assert (X : In (SMod m) (segs ++ fake)) by (apply in_app_iff; left; exact IS). rewrite E in X. apply in_app_iff in X as [X|[X|X]]; [apply in_app_iff; left; exact X|discriminate X|apply in_app_iff; right; right; exact X]. }
        destruct (decided_in _ _ _ D IS') as (s' & J & DS). cbn in DS. subst s'. exact J. }
    unfold get_autocxxes. apply in_flat_map. exists (SMod m). auto. }
  destruct K as [(id & l & I & IT)|(IT & U & N1 & N2 & N3 & N4)]; [exact (NESTED id l I IT)|].
  apply in_flat_map in IT as (i & II & IT). destruct i as [last body|[|] id [l|]|id ex attrs|n]; try solve [destruct IT]; try solve [destruct IT as [X|[]]; discriminate X].
  - cbn in IT. destruct (String.eqb last "include_cpp") eqn:L; [|destruct IT]. destruct IT as [X|[]]. injection X as ->.
    destruct (stands_in _ _ _ ST II) as (s & IS & SF). apply stands_macro in SF. rewrite L in SF. destruct SF as (e1 & EP1 & ->). rewrite EP in EP1. injection EP1 as <-.
    destruct SH as [(_ & _ & _ & _ & D)|(fake & l1 & e & e' & l2 & supers & cpp & _ & E & T1 & T2 & D & NG & HS & HC & GR & SU & (fs & FU & HF) & (tys & TY & HT) & C1 & C2 & SM)].
    + destruct (decided_in _ _ _ D IS) as (s' & J & c & -> & DC). unfold get_autocxxes. apply in_flat_map. exists (SAutocxx (Engine c (en_state e0))). split; [exact J|]. left.
      destruct (cf_allowlist (en_config e0)) as [m| |m] eqn:A; [destruct U; exists m; reflexivity| |]; subst c; destruct e0; reflexivity.
    + exfalso. destruct SM as [[x X]|[[x X]|[[x X]|[AT [x X]]]]]; [exact (N1 x X)|exact (N2 x X)|exact (N3 x X)|exact (N4 AT x X)].
  - cbn [sources] in IT. exact (NESTED id l II IT).
Qed.

Section MacroArchive.
Variables (hash : config -> string) (nightly : bool) (prelude : string) (convert : request -> config -> outcome conversion) (incs extra : list string).
Variable print_mod : string -> string -> string.
Variables (tokens : string -> bool) (open : string -> option string) (of_json : string -> option multi_bindings).

(** [f] lists paths with colons between them; [j] is what is in the first of them which can be opened. *)
Definition first_readable (f j : string) : Prop := exists l p l', f = String.concat ":" (l ++ p :: l')
  /\ (forall q a b, In q (l ++ p :: l') -> q <> a +++ ":" +++ b) /\ (forall q, In q l -> open q = None) /\ open p = Some j.
Lemma split_one q rest : (forall a b, q <> a +++ ":" +++ b) -> split_paths (q +++ String ":" rest) = q :: split_paths rest /\ split_paths q = [q].
Proof.
  induction q as [|c q IH]; intros N; [split; reflexivity|]. destruct IH as [IH1 IH2].
  - intros a b E. apply (N (String c a) b). rewrite E. reflexivity.
  - assert (NC : Ascii.eqb c ":" = false).
    { apply Ascii.eqb_neq. intros ->. apply (N "" q). reflexivity. }
    cbn [append split_paths]. rewrite NC, IH1, IH2. split; reflexivity.
Qed.
Lemma split_all l : l <> [] -> (forall q a b, In q l -> q <> a +++ ":" +++ b) -> split_paths (String.concat ":" l) = l.
Proof.
  induction l as [|q [|q' l] IH]; intros NE N; [contradiction|cbn; apply (split_one q ""), (fun a b => N q a b (or_introl eq_refl))|].
  change (String.concat ":" (q :: q' :: l)) with (q +++ String ":" (String.concat ":" (q' :: l))).
  rewrite (proj1 (split_one q _ (fun a b => N q a b (or_introl eq_refl)))), IH; [reflexivity|discriminate|].
  intros x a b I. apply N. right. exact I.
Qed.
Lemma first_readable_open f j : first_readable f j -> first_open open (split_paths f) = Some j.
Proof.
  intros (l & p & l' & -> & N & NO & O). rewrite split_all; [|destruct l; discriminate|exact N]. clear N.
  induction l as [|q l IH]; cbn [app first_open]; [rewrite O; reflexivity|]. rewrite (NO q (or_introl eq_refl)). apply IH. intros x I. apply NO. right. exact I.
Qed.

(** If the generator keeps a block as it is written and no hashes collide, the macro is replaced by the code which was generated for it. *)
Theorem c37_macro_finds_partial :
  forall ws auto items pf pf' e f j outs, built hash nightly prelude convert incs extra ws auto items pf pf' ->
    rs_outputs print_mod (get_autocxxes pf') = Done outs ->
    ev_archive e = Some f -> first_readable f j -> of_json j = Some (rs_archive hash outs) ->
    (forall ct, In ct outs -> tokens (snd ct) = true) ->
    (forall c d, In c (map fst outs) -> In d (map fst outs) -> hash c = hash d -> c = d) ->
    forall ts e0, engine_parse ts = Done e0 -> kept ws auto items ts e0 -> cf_parse_only (en_config e0) = false ->
      exists e' o, generate hash nightly prelude convert incs extra e0 = (e', Done tt) /\ get_rs_output e' = Done o
        /\ generate_rs hash tokens open of_json e (en_config e0) = Done (ExTokens (rs_text print_mod o)).
Proof.
  intros ws auto items pf pf' e f j outs B R EA FO%first_readable_open OJ TK INJ ts e0 EP K PO.
  destruct (built_outputs hash nightly prelude convert incs extra print_mod _ _ _ _ _ B) as (outs' & R' & P & N & S & M). rewrite R in R'. injection R' as <-.
  assert (IE : In e0 (get_autocxxes pf)) by (destruct B as (PF & _); exact (kept_in _ _ _ _ _ _ PF EP K)).
  destruct (S e0 IE) as (e' & o & G & O & IO). exists e', o. split; [exact G|]. split; [exact O|].
  unfold generate_rs. rewrite PO. unfold new_strategy. rewrite EA. unfold make_include. rewrite FO, OJ.
  assert (ND : NoDup (map fst outs)).
  { clear - N. induction outs as [|ct outs IH]; [constructor|]. cbn [map] in N. inversion N as [|x y NI N']; subst. cbn [map]. constructor; [|exact (IH N')].
    intros I. apply NI. apply in_map_iff in I as (k & E & I). apply in_map_iff. exists k. rewrite E. auto. }
  assert (IC : In (en_config e0) (map fst outs)) by (apply in_map_iff; exists (en_config e0, rs_text print_mod o); auto).
  destruct (c37_exact_without_collisions hash tokens outs ND TK (en_config e0)) as [X _].
  - intros d u I E. apply INJ; [apply in_map_iff; exists (d, u); auto|exact IC|exact E].
  - rewrite (X _ IO). reflexivity.
Qed.
End MacroArchive.
Print Assumptions c37_macro_finds_partial.

Example c37_archive_case : first_readable (fun p => if String.eqb p "b.json" then Some "{}" else None) "a.json:b.json:c.json" "{}".
Proof.
  exists ["a.json"], "b.json", ["c.json"]. split; [reflexivity|]. split; [|split; [|reflexivity]].
  - intros q a b [<-|[<-|[<-|[]]]] E; repeat (destruct a as [|? a]; [discriminate E|]; cbn in E; injection E as _ E); destruct a; discriminate E.
  - intros q [<-|[]]. reflexivity.
Qed.

Definition conv_case : request -> config -> outcome conversion := fun _ c => Done (Conversion (get_mod_name c) None "").
Example c37_case :
  let hash := get_rs_filename in
  exists pf pf' outs, built hash true "" conv_case [] [] (fun _ s => s) true (blocks_case "x" "y") pf pf'
    /\ rs_outputs (fun m i => m +++ ": " +++ i) (get_autocxxes pf') = Done outs
    /\ (forall c d, In c (map fst outs) -> In d (map fst outs) -> hash c = hash d -> c = d)
    /\ exists id l, In (IMod false id (Some l)) (blocks_case "x" "y") /\ In (SrcBlock [TIdent "name"; TBang; TGroup [TIdent "x"]; TIdent "generate_all"; TBang; TGroup []]) (flat_map sources l).
Proof.
  cbv zeta. eexists _, _, _. split; [|split; [|split]].
  - split; [vm_compute; reflexivity|]. split; [vm_compute; reflexivity|].
    intros ts e0 I EP. vm_compute in I. repeat (destruct I as [I|I]; [try discriminate I; injection I as <-; vm_compute in EP; injection EP as <-; intros m M; vm_compute in M; first [discriminate M|injection M as <-; reflexivity]|]). destruct I.
  - vm_compute. reflexivity.
  - cbn [map fst In]. intros c d [<-|[<-|[<-|[]]]] [<-|[<-|[<-|[]]]] E; vm_compute in E; first [discriminate E|reflexivity].
  - exists "a". eexists. split; [right; left; reflexivity|]. right. left. reflexivity.
Qed.

(** A block which does not say what to generate, or one to which discoveries are added, is not found by the macro, even if all hashes differ: its configuration was
    changed before it was hashed. *)
Theorem c37_macro_finds_refuted :
  exists items pf e0, flat_map sources items = [SrcBlock [TPound; TIdent "include"; TStr "x.h"]]
    /\ (forall ws auto, parse_file_contents ws auto items = POk pf) /\ engine_parse [TPound; TIdent "include"; TStr "x.h"] = Done e0
    /\ forall hash nightly prelude incs extra print_mod tokens,
       (forall c d, hash c = hash d -> c = d) ->
       exists pf' outs, resolve_all (generate hash nightly prelude conv_case incs extra) pf = (pf', POk tt)
         /\ rs_outputs print_mod (get_autocxxes pf') = Done outs /\ List.length outs = 1
         /\ mb_get hash tokens (en_config e0) (rs_archive hash outs) = inr MissingBindings.
Proof.
  exists [IMacro "include_cpp" [TPound; TIdent "include"; TStr "x.h"]]. eexists _, _. split; [reflexivity|]. split; [intros ws [|]; vm_compute; reflexivity|]. split; [vm_compute; reflexivity|].
  intros hash nightly prelude incs extra print_mod tokens INJ. eexists _, _. split; [cbv -[append make_clang_args]; destruct nightly; reflexivity|]. split; [reflexivity|]. split; [reflexivity|].
  apply (proj2 (c37_last_with_hash hash tokens _ _)). intros d u [I|[]] E. injection I as <- <-. apply INJ in E. discriminate E.
Qed.
Print Assumptions c37_macro_finds_refuted.
