(** Proofs about ParseFullModel: it does what ParseBindgenModel does, and where what it makes comes from. *)
From Verif Require Import Base QNamesModel KnownTypesModel ApiModel ApiVecModel ApiVecProofs ErrorReporterModel NameCheckModel CallbacksModel ExternFunModel
  TypesModel CppTypesModel ConcreteNamesModel TypeConverterModel ByValueModel SynthNamesModel FnAnalysisModel SubclassGenModel
  FrontModel FrontProofs FnDriverModel CppGenModel RsGenModel ParseFullModel.
From Verif Require FrontProps ParseBindgenProofs.

(** Items without their types and signatures, and APIs without theirs. *)
Definition forget_foreign (i : pforeign) : PB.foreign_item :=
  match i with PFFn id _ _ _ => PB.FIFn id | PFStatic id => PB.FIStatic id | PFOther => PB.FIOther end.
Fixpoint forget (it : pitem) : PB.item :=
  match it with
  | PForeignMod l => PB.IForeignMod (map forget_foreign l)
  | PStruct id _ fields => PB.IStruct id (map forget_field fields)
  | PEnum id => PB.IEnum id
  | PImpl s fns => PB.IImpl s fns
  | PMod id l => PB.IMod id (map forget l)
  | PModDecl id => PB.IModDecl id
  | PUse segs tail => PB.IUse segs tail
  | PConst id t => PB.IConst id t
  | PType id _ _ => PB.IType id
  | POther => PB.IOther
  end.
Definition bare (x : xapi) : api :=
  API (x_info x)
    match x_kind x with
    | XForward e => KForwardDeclaration e
    | XOpaqueTypedef b => KOpaqueTypedef b
    | XConcrete def _ => KConcreteType def
    | XStringConstructor => KStringConstructor
    | XFunction f _ _ => KFunction (PB.unanalyzed_fn (f_ident f) (f_self_ty f))
    | XConst => KConst
    | XTypedef _ old _ => KTypedef old []
    | XEnum => KEnum
    | XStruct _ _ => KStruct PB.unanalyzed_struct
    | XCType q => KCType q
    | XIgnored e c => KIgnored e c
    | XRustType => KRustType
    | XRustFn ds => KRustFn ds
    | XRustSubclassFn sub sf => KRustSubclassFn sub (sf_deps sf)
    | XSubclass sup => KSubclass sup
    | XSubclassTraitItem _ => KSubclassTraitItem
    | XExternCppType pod _ => KExternCppType pod
    end.

Section ItemInd.
Variable P : pitem -> Prop.
Hypothesis leaf : forall it, (forall id l, it <> PMod id l) -> P it.
Hypothesis mod_ : forall id l, Forall P l -> P (PMod id l).
Fixpoint pitem_ind' (it : pitem) : P it :=
  match it with
  | PMod id l =>
      mod_ id l ((fix go (l : list pitem) : Forall P l :=
                    match l with [] => Forall_nil _ | i :: l' => Forall_cons _ (pitem_ind' i) (go l') end) l)
  | PForeignMod x => leaf (PForeignMod x) ltac:(discriminate)
  | PStruct x y z => leaf (PStruct x y z) ltac:(discriminate)
  | PEnum x => leaf (PEnum x) ltac:(discriminate)
  | PImpl x y => leaf (PImpl x y) ltac:(discriminate)
  | PModDecl x => leaf (PModDecl x) ltac:(discriminate)
  | PUse x y => leaf (PUse x y) ltac:(discriminate)
  | PConst x y => leaf (PConst x y) ltac:(discriminate)
  | PType x y z => leaf (PType x y z) ltac:(discriminate)
  | POther => leaf POther ltac:(discriminate)
  end.
End ItemInd.

Section S.
Variable w : world.
Notation cfg := (w_cfg w).
Notation cb := (w_cb w).
Notation fc := (front_cfg w).
Notation B := (w_builtin w).
Notation L := (w_lexes w).
Notation R := (w_reserved w).

Lemma go_loop ns l : forall v cv more,
  (fix go (l : list pitem) (v : list xapi) (cv : xconv) (more : list xapi) {struct l} : option (list xapi * xconv * list xapi) :=
     match l with
     | [] => Some (v, cv, more)
     | i :: l' =>
         match x_item w i ns v cv with
         | None => None
         | Some (v', cv', r) => go l' v' cv' (x_report w ns more r)
         end
     end) l v cv more = x_loop w ns l v cv more.
Proof. induction l as [|i l IH]; intros; [reflexivity|]. cbn [x_loop]. destruct (x_item w i ns v cv) as [[[a c] r]|]; [apply IH|reflexivity]. Qed.
Lemma x_item_mod id l ns v cv :
  x_item w (PMod id l) ns v cv =
  match x_loop w (ns ++ [id]) l v xconv_new [] with
  | None => None
  | Some (v', cv', more) => Some (x_finished w (ns ++ [id]) cv' (xextend fc v' more), cv, Ok tt)
  end.
Proof. cbn [x_item]. rewrite go_loop. reflexivity. Qed.
Lemma x_item_leaf it ns v cv : (forall id l, it <> PMod id l) -> x_item w it ns v cv = x_leaf w it ns v cv.
Proof. destruct it; intros H; try reflexivity. elim (H _ _ eq_refl). Qed.

(** * The same as without types *)
Definition rep (v : list xapi) (u : apivec) : Prop := av_wf u /\ av_apis u = map bare v.
Lemma rep_nil : rep [] av_new.
Proof. split; [apply av_wf_new|reflexivity]. Qed.
Lemma bare_name x : aname (bare x) = xname x. Proof. reflexivity. Qed.
Lemma rep_push v u x : rep v u -> rep (xpush fc v x) (av_push B u (bare x)).
Proof.
  intros [W E]. split; [apply av_wf_push, W|].
  apply (FrontProps.c79_list_is_collection fc bare); [reflexivity| |reflexivity|exact E|exact (proj2 W)].
  intros y. unfold is_ignored, x_ignored, bare. destruct (x_kind y); reflexivity.
Qed.
Ltac pushed H := cbn [fst snd]; match goal with |- rep (xpush _ _ ?x) _ => exact (rep_push _ _ x H) end.
Lemma rep_extend l : forall v u, rep v u -> rep (xextend fc v l) (av_extend B u (map bare l)).
Proof. induction l as [|x l IH]; intros v u H; [exact H|]. cbn. apply IH, rep_push, H. Qed.
Lemma rep_append v u v' u' : rep v u -> rep v' u' -> rep (xextend fc v v') (fst (av_append B u u')).
Proof. intros H [_ E]. unfold av_append. cbn [fst]. rewrite E. apply rep_extend, H. Qed.
Lemma rep_report ns v u r : rep v u -> rep (x_report w ns v r) (fst (report_any_error B ns u r)).
Proof.
  intros H. destruct r as [[]|[e [c|]]]; cbn [x_report report_any_error fst]; [exact H| |exact H].
  apply (rep_push v u (XA (AN (QN ns (ctx_id c)) None) (XIgnored e (Some c))) H).
Qed.

Definition same {A B} (P : A -> B -> Prop) (x : option A) (y : option B) : Prop :=
  match x, y with Some a, Some b => P a b | None, None => True | _, _ => False end.

Definition bare_fn (f : func * option string) : string * option string := (f_ident (fst f), snd f).
Definition crep (cv : xconv) (c : PB.conv) : Prop :=
  PB.cv_funcs c = map bare_fn (xv_funcs cv) /\ PB.cv_receivers c = xv_receivers cv /\ rep (xv_ignored cv) (PB.cv_ignored c).
Lemma crep_new : crep xconv_new PB.conv_new.
Proof. split; [reflexivity|]. split; [reflexivity|]. apply rep_nil. Qed.

(** The lookups panic together. *)
Lemma fact_root {V} (m : results -> list (nat * V)) q : (exists e, fact m cb q = Err e) <-> rs_root cb = None.
Proof.
  unfold fact, id_by_name. destruct (rs_root cb) as [r|]; [|split; eauto].
  split; [|discriminate]. intros [e H]. destruct (mod_id _ _ _) as [p|]; [destruct (iget _ _)|]; discriminate.
Qed.
Lemma fact_ok {V} (m : results -> list (nat * V)) q r : rs_root cb = Some r -> exists o, fact m cb q = Ok o.
Proof. intros E. destruct (fact m cb q) as [o|e] eqn:F; [eauto|]. rewrite (proj1 (fact_root m q)) in E by eauto. discriminate. Qed.
Lemma func_of_root q i vd o : func_of w q i vd o = None <-> rs_root cb = None.
Proof.
  unfold func_of, get_virtualness, get_cpp_visibility, special_member_kind, get_deleted_or_defaulted.
  destruct (rs_root cb) as [r|] eqn:E.
  - destruct (fact_ok rs_virtuals q r E) as [a ->], (fact_ok rs_visibility q r E) as [b ->], (fact_ok rs_special q r E) as [c ->], (fact_ok rs_explicit q r E) as [e ->].
    split; [|discriminate]. destruct b; discriminate.
  - destruct (proj2 (fact_root rs_virtuals q) E) as [e ->]. tauto.
Qed.
Lemma func_of_ident q i vd o f : func_of w q i vd o = Some f -> f_ident f = qn_item q.
Proof. unfold func_of. destruct (get_virtualness cb q), (get_cpp_visibility cb q), (special_member_kind cb q), (get_deleted_or_defaulted cb q); try discriminate. intros H. injection H as <-. reflexivity. Qed.

Lemma foreign_items_same ns l : forall funcs extra u, rep extra u ->
  same (fun a b => fst b = map bare_fn (fst a) /\ rep (snd a) (snd b))
    (x_foreign_items w ns l funcs extra) (PB.parse_foreign_items B cb ns (map forget_foreign l) (map bare_fn funcs) u).
Proof.
  induction l as [|i l IH]; intros funcs extra u H; [split; [reflexivity|exact H]|].
  cbn [x_foreign_items map PB.parse_foreign_items]. destruct i as [id inputs vd out|id|]; cbn [x_foreign_item forget_foreign PB.parse_foreign_item].
  - destruct (func_of w _ inputs vd out) as [f|] eqn:F.
    + destruct (get_original_name cb _) as [o|e] eqn:O; [|exact I]. pose proof (func_of_ident _ _ _ _ _ F) as E. cbn in E.
      specialize (IH (funcs ++ [(f, o)]) (x_report w ns extra (Ok tt)) (fst (report_any_error B ns u (Ok tt))) (rep_report ns _ _ (Ok tt) H)).
      rewrite map_app in IH. cbn [map] in IH. change (bare_fn (f, o)) with (f_ident f, o) in IH. rewrite E in IH. exact IH.
    + apply func_of_root in F. unfold get_original_name. destruct (proj2 (fact_root rs_original (QN ns (strip_bindgen_original_suffix id))) F) as [e ->]. exact I.
  - apply IH. apply (rep_report ns extra u _ H).
  - apply IH. apply (rep_report ns extra u _ H).
Qed.

Definition step_rep (a : list xapi * xconv * res unit err_with_ctx) (b : apivec * PB.conv * res unit err_with_ctx) : Prop :=
  rep (fst (fst a)) (fst (fst b)) /\ crep (snd (fst a)) (snd (fst b)) /\ snd a = snd b.

Lemma struct_same ns id g fields v u : rep v u ->
  same (fun a b => rep (fst a) (fst b) /\ snd a = snd b) (x_struct w ns id g fields v)
    (PB.parse_struct B L R cb cfg ns id (map forget_field fields) u).
Proof.
  intros H. unfold x_struct, PB.parse_struct. destruct (ends_with _ _); [split; [exact H|reflexivity]|].
  destruct (PB.api_name_qualified B L R cb ns id) as [[name|e]|]; [|split; [exact H|reflexivity]|exact I].
  destruct (is_known_substitute_type (an_name name)); [split; [exact H|reflexivity]|].
  destruct (PB.fatal_attrs B cb (an_name name)) as [err|]; [|exact I].
  match goal with |- context [if ?b then None else _] => destruct b end; [split; [exact H|reflexivity]|].
  match goal with |- context [if ?b then Some _ else _] => destruct b end; cbn [xname x_info aname api_info];
    destruct (CF.is_on_blocklist _ _); (split; [|reflexivity]); cbn [fst]; try exact H; pushed H.
Qed.
Lemma use_same ns segs tail v u : rep v u ->
  same (fun a b => rep (fst a) (fst b) /\ snd a = snd b) (x_use w ns segs tail v) (PB.parse_use B cb ns segs tail u).
Proof.
  intros H. unfold x_use, PB.parse_use. destruct tail as [i|old new|]; [split; [exact H|reflexivity]| |split; [exact H|reflexivity]].
  destruct (String.eqb new _); [split; [exact H|reflexivity]|]. destruct segs as [|s1 [|s2 rest]]; [exact I..|].
  destruct (String.eqb s1 "self" && String.eqb s2 "super"); [|exact I]. unfold path_name, TypesModel.segs.
  destruct (from_type_path _) as [q|]; [|exact I]. destruct (qn_eqb _ _); [split; [exact H|reflexivity]|].
  destruct (PB.api_name cb ns new) as [n|]; [|exact I]. split; [|reflexivity]. pushed H.
Qed.
Lemma leaf_same it ns v cv u c : rep v u -> crep cv c -> same step_rep (x_leaf w it ns v cv) (PB.parse_leaf B L R cb cfg (forget it) ns u c).
Proof.
  intros H (F & RC & IG). destruct it as [l|id g fields|id|s fns|id l|id|segs tail|id t|id g t|]; cbn [x_leaf PB.parse_leaf forget].
  - unfold x_foreign_mod, PB.convert_foreign_mod_items. rewrite F.
    pose proof (foreign_items_same ns l (xv_funcs cv) [] av_new rep_nil) as S.
    destruct (x_foreign_items _ _ _ _ _) as [[fs ex]|], (PB.parse_foreign_items _ _ _ _ _ _) as [[fs' ex']|]; cbn in S; try contradiction; [|exact I].
    destruct S as [-> S]. split; [exact H|]. split; [|reflexivity]. split; [reflexivity|]. split; [exact RC|]. cbn [fst snd PB.cv_ignored xv_ignored].
    apply rep_append; assumption.
  - pose proof (struct_same ns id g fields v u H) as S. destruct (x_struct _ _ _ _ _ _) as [[a r]|], (PB.parse_struct _ _ _ _ _ _ _ _ _) as [[b r']|]; cbn in S; try contradiction; [|exact I].
    destruct S as [S ->]. split; [exact S|]. split; [|reflexivity]. repeat split; auto; apply IG.
  - destruct (PB.api_name_qualified B L R cb ns id) as [[name|e]|]; [| |exact I].
    + split; [|split; [|reflexivity]; repeat split; auto; apply IG]. cbn [fst]. destruct (CF.is_on_blocklist _ _); [exact H|]. apply (rep_push v u (XA name XEnum) H).
    + split; [exact H|]. split; [|reflexivity]. repeat split; auto; apply IG.
  - split; [exact H|]. split; [|reflexivity]. cbn [fst snd]. unfold x_impl, PB.convert_impl_items. destruct s as [ty|]; [|repeat split; auto; apply IG].
    split; [exact F|]. split; [|exact IG]. cbn [PB.cv_receivers xv_receivers]. rewrite RC. reflexivity.
  - split; [exact H|]. split; [|reflexivity]. repeat split; auto; apply IG.
  - split; [exact H|]. split; [|reflexivity]. repeat split; auto; apply IG.
  - pose proof (use_same ns segs tail v u H) as S. destruct (x_use _ _ _ _ _) as [[a r]|], (PB.parse_use _ _ _ _ _ _) as [[b r']|]; cbn in S; try contradiction; [|exact I].
    destruct S as [S ->]. split; [exact S|]. split; [|reflexivity]. repeat split; auto; apply IG.
  - destruct (match t with Some t => _ | None => _ end); [|split; [exact H|]; split; [|reflexivity]; repeat split; auto; apply IG|exact I].
    destruct (PB.api_name cb ns id) as [n|]; [|exact I]. split; [apply (rep_push v u (XA n XConst) H)|]. split; [|reflexivity]. repeat split; auto; apply IG.
  - destruct (PB.api_name cb ns id) as [n|]; [|exact I]. split; [pushed H|]. split; [|reflexivity]. repeat split; auto; apply IG.
  - split; [exact H|]. split; [|reflexivity]. repeat split; auto; apply IG.
Qed.
Lemma finished_same ns cv c v u : crep cv c -> rep v u -> rep (x_finished w ns cv v) (PB.finished B ns c u).
Proof.
  intros (F & RC & IG) H. unfold x_finished, PB.finished. rewrite F, RC.
  replace (map (PB.finished_fn ns (xv_receivers cv)) (map bare_fn (xv_funcs cv))) with (map bare (map (x_finished_fn ns (xv_receivers cv)) (xv_funcs cv))).
  - apply rep_extend, rep_append; assumption.
  - rewrite !map_map. apply map_ext. intros [f o]. reflexivity.
Qed.
Definition item_same (it : pitem) : Prop := forall ns v cv u c, rep v u -> crep cv c ->
  same step_rep (x_item w it ns v cv) (PB.parse_item B L R cb cfg (forget it) ns u c).
Lemma loop_same ns l : Forall item_same l -> forall v cv more u c m, rep v u -> crep cv c -> rep more m ->
  same (fun a b => rep (fst (fst a)) (fst (fst b)) /\ crep (snd (fst a)) (snd (fst b)) /\ rep (snd a) (snd b))
    (x_loop w ns l v cv more) (PB.parse_loop B L R cb cfg ns (map forget l) u c m).
Proof.
  induction 1 as [|i l S F IH]; intros v cv more u c m H1 H2 H3; [repeat split; try apply H1; try apply H2; apply H3|].
  cbn [x_loop map PB.parse_loop]. specialize (S ns v cv u c H1 H2).
  destruct (x_item w i ns v cv) as [[[a b] r]|], (PB.parse_item _ _ _ _ _ _ _ _ _) as [[[a' b'] r']|]; cbn in S; try contradiction; [|exact I].
  destruct S as (S1 & S2 & S3). cbn in S1, S2, S3. subst r'. apply IH; auto. apply rep_report, H3.
Qed.
Lemma all_same it : item_same it.
Proof.
  induction it as [it NM|id l F] using pitem_ind'; intros ns v cv u c H1 H2.
  - rewrite x_item_leaf by exact NM. pose proof (leaf_same it ns v cv u c H1 H2) as S.
    destruct it; try exact S. elim (NM _ _ eq_refl).
  - rewrite x_item_mod. cbn [forget]. rewrite ParseBindgenProofs.p_item_mod.
    pose proof (loop_same (ns ++ [id]) l F v xconv_new [] u PB.conv_new av_new H1 crep_new rep_nil) as S.
    destruct (x_loop _ _ _ _ _ _) as [[[a b] m]|], (PB.parse_loop _ _ _ _ _ _ _ _ _ _) as [[[a' b'] m']|]; cbn in S; try contradiction; [|exact I].
    destruct S as (S1 & S2 & S3). split; [|split; [exact H2|reflexivity]]. cbn [fst]. apply finished_same; [exact S2|]. apply rep_append; assumption.
Qed.
Lemma mod_items_same ns l v u : rep v u -> same rep (x_mod_items w ns l v) (PB.parse_mod_items B L R cb cfg ns (map forget l) u).
Proof.
  intros H. unfold x_mod_items, PB.parse_mod_items.
  assert (F : Forall item_same l) by (apply Forall_forall; intros; apply all_same).
  pose proof (loop_same ns l F v xconv_new [] u PB.conv_new av_new H crep_new rep_nil) as S.
  destruct (x_loop _ _ _ _ _ _) as [[[a b] m]|], (PB.parse_loop _ _ _ _ _ _ _ _ _ _) as [[[a' b'] m']|]; cbn in S; try contradiction; [|exact I].
  destruct S as (S1 & S2 & S3). apply finished_same; [exact S2|]. apply rep_append; assumption.
Qed.

Definition same_outcome (x : PB.outcome (list xapi)) (y : PB.outcome apivec) : Prop :=
  match x, y with PB.ODone v, PB.ODone u => rep v u | PB.OFail e, PB.OFail e' => e = e' | PB.OPanic, PB.OPanic => True | _, _ => False end.
Lemma rust_funs_same l : forall v u, rep v u -> same_outcome (x_rust_funs w l v) (PB.add_rust_funs B (w_fun_deps w) l u).
Proof.
  induction l as [|f l IH]; intros v u H; [exact H|]. cbn [x_rust_funs PB.add_rust_funs].
  destruct (w_fun_deps w f) as [ds|e|]; [|reflexivity|exact I]. apply IH. pushed H.
Qed.
Lemma rep_extend_map {A} (f : A -> xapi) (g : A -> api) l v u : (forall a, bare (f a) = g a) -> rep v u -> rep (xextend fc v (map f l)) (av_extend B u (map g l)).
Proof.
  intros E H. replace (map g l) with (map bare (map f l)); [apply rep_extend, H|]. rewrite map_map. apply map_ext, E.
Qed.
Lemma config_same v u : rep v u -> same_outcome (x_from_config w v) (PB.add_apis_from_config B cfg (w_fun_deps w) u).
Proof.
  intros H. unfold x_from_config, PB.add_apis_from_config. cbv zeta.
  set (v1 := xextend fc v _). set (u1 := av_extend B u _).
  assert (H1 : rep v1 u1) by (apply rep_extend_map; [reflexivity|exact H]). clearbody v1 u1.
  pose proof (rust_funs_same (CF.cf_extern_rust_funs cfg) v1 u1 H1) as S.
  destruct (x_rust_funs _ _ _) as [v2|e|], (PB.add_rust_funs _ _ _ _) as [u2|e'|]; cbn in S; try contradiction; [|exact S|exact I].
  cbn [same_outcome]. apply rep_extend_map; [reflexivity|]. apply rep_extend_map; [reflexivity|exact S].
Qed.
Lemma replacements_same : map (fun p => (fst p, bare (snd p))) (x_replacements w) = PB.replacements cfg.
Proof.
  unfold x_replacements, PB.replacements.
  assert (G : forall l m m', map (fun p => (fst p, bare (snd p))) m = m' ->
    map (fun p => (fst p, bare (snd p))) (fold_left (fun m kv => let qn := new_from_cpp_name (fst kv) in
      qset qn (XA (AN qn None) (XExternCppType (smem (to_cpp_name qn) (CF.cf_pod_requests cfg)) (CF.et_opaque (snd kv)))) m) l m) =
    fold_left (fun m kv => let qn := new_from_cpp_name (fst kv) in qset qn (API (AN qn None) (KExternCppType (smem (to_cpp_name qn) (CF.cf_pod_requests cfg)))) m) l m').
  { induction l as [|kv l IH]; intros m m' E; [exact E|]. cbn [fold_left]. apply IH. cbv zeta. clear IH. subst m'.
    induction m as [|[a x] m IH]; cbn; [reflexivity|]. destruct (qn_eqb _ a); cbn; [reflexivity|]. f_equal. exact IH. }
  apply G. reflexivity.
Qed.
Lemma qget_bare q m : qget q (map (fun p : qname * xapi => (fst p, bare (snd p))) m) = option_map bare (qget q m).
Proof. induction m as [|[a x] m IH]; cbn; [reflexivity|]. destruct (qn_eqb q a); [reflexivity|exact IH]. Qed.
Lemma rep_filter (p : xapi -> bool) (p' : api -> bool) v u : (forall x, p' (bare x) = p x) -> rep v u -> rep (filter p v) (av_retain p' u).
Proof.
  intros E [W A]. split; [apply av_wf_retain, W|]. unfold av_retain. cbn [av_apis]. rewrite A. clear A W.
  induction v as [|x v IH]; [reflexivity|]. cbn [map filter]. rewrite E. destruct (p x); cbn [map]; rewrite IH; reflexivity.
Qed.
Lemma root_same l : PB.find_items_in_root (map forget l) = option_map (option_map (map forget)) (x_root l).
Proof. induction l as [|i l IH]; [reflexivity|]. destruct i; cbn [map forget PB.find_items_in_root x_root]; try exact IH; destruct (String.eqb id "root"); reflexivity || exact IH. Qed.
Lemma parse_same items : same_outcome (x_parse w items) (PB.parse_items B L R cb cfg (w_hash w) (w_fun_deps w) (map forget items)).
Proof.
  unfold x_parse, PB.parse_items. rewrite root_same. destruct (x_root items) as [root|]; [|exact I]. cbn [option_map]. cbv zeta.
  set (v0 := if CF.cf_exclude_utilities cfg then _ else _). set (u0 := if CF.cf_exclude_utilities cfg then _ else _).
  assert (H0 : rep v0 u0). { unfold v0, u0. destruct (CF.cf_exclude_utilities cfg); [apply rep_nil|]. pushed rep_nil. }
  clearbody v0 u0. pose proof (config_same v0 u0 H0) as S.
  destruct (x_from_config _ _) as [v1|e|], (PB.add_apis_from_config _ _ _ _) as [u1|e'|]; cbn in S; try contradiction; [|exact S|exact I].
  pose proof (mod_items_same [] (match root with Some l => l | None => [] end) v1 u1 S) as M.
  replace (map forget (match root with Some l => l | None => [] end)) with (match option_map (map forget) root with Some l => l | None => [] end) in M by (destruct root; reflexivity).
  destruct (x_mod_items _ _ _ _) as [v2|], (PB.parse_mod_items _ _ _ _ _ _ _ _) as [u2|]; cbn in M; try contradiction; [|exact I].
  assert (U : x_unobeyed w v2 = PB.unobeyed cfg u2).
  { unfold x_unobeyed, PB.unobeyed. destruct M as [_ ->]. rewrite map_map. reflexivity. }
  rewrite U. destruct (PB.unobeyed cfg u2); [reflexivity|]. cbn [same_outcome]. unfold x_replace_extern, PB.replace_extern_cpp_types.
  rewrite <- replacements_same. replace (map snd (map _ (x_replacements w))) with (map bare (map snd (x_replacements w))) by (rewrite !map_map; reflexivity).
  apply rep_extend, rep_filter; [|exact M]. intros x. rewrite bare_name, qget_bare. destruct (qget _ _); reflexivity.
Qed.

(** * Where the APIs come from *)
(** [within ns l ns' sib it]: starting from the items [l] of namespace [ns], the item [it] is found in namespace [ns'], among [sib]. *)
Inductive within : list string -> list pitem -> list string -> list pitem -> pitem -> Prop :=
| w_here ns l it : In it l -> within ns l ns l it
| w_sub ns l id sub ns' sib it : In (PMod id sub) l -> within (ns ++ [id]) sub ns' sib it -> within ns l ns' sib it.
(** An [impl] block with a function which stands for the extern function [id]. *)
Definition has_method (it : pitem) (ty id : string) : Prop :=
  exists fns f, it = PImpl (Some ty) fns /\ In f fns
    /\ id = strip_bindgen_original_suffix (match snd f with Some c => c | None => fst f end).
(** The receiver of a function is a type with an [impl] block in the same module which has the function; there is none only if no
    block has it. *)
Definition receiver (ns : list string) (sib : list pitem) (id : string) (r : option qname) : Prop :=
  match r with
  | Some q => exists b ty, In b sib /\ has_method b ty id /\ q = QN ns ty
  | None => forall b ty, In b sib -> ~ has_method b ty id
  end.
(** An rvalue reference, as bindgen marks it. *)
Definition rvalue_reference (t : ty) : Prop := exists lead id args, t = TPath lead id args /\ hd id lead = "__bindgen_marker_RValueReference".

(** What an item makes. *)
Inductive made (ns : list string) (sib : list pitem) : pitem -> xapi -> Prop :=
| m_struct id g fields rv o : get_original_name cb (QN ns id) = Ok o -> is_known_type (QN ns id) = false ->
    (rv = true <-> exists f, In f fields /\ rvalue_reference (bf_ty f)) ->
    made ns sib (PStruct id g fields) (XA (AN (QN ns id) o) (XStruct (SD fields rv g) None))
| m_forward id g fields err o : get_original_name cb (QN ns id) = Ok o -> is_known_type (QN ns id) = false ->
    (forall e c, err = Some (e, c) -> c = Some (ctx_for_item B id)) ->
    made ns sib (PStruct id g fields) (XA (AN (QN ns id) o) (XForward err))
| m_enum id o : get_original_name cb (QN ns id) = Ok o -> made ns sib (PEnum id) (XA (AN (QN ns id) o) XEnum)
| m_use segs old new q o : get_original_name cb (QN ns new) = Ok o -> path_name segs old = Some q -> q <> QN ns new ->
    made ns sib (PUse ("self" :: "super" :: segs) (PB.URename old new)) (XA (AN (QN ns new) o) (XTypedef (TdUse (TPath segs old [])) (Some q) None))
| m_const id t o : get_original_name cb (QN ns id) = Ok o -> made ns sib (PConst id t) (XA (AN (QN ns id) o) XConst)
| m_type id g t o : get_original_name cb (QN ns id) = Ok o -> made ns sib (PType id g t) (XA (AN (QN ns id) o) (XTypedef (TdType g t) None None))
| m_fn l id inputs variadic output r o v vis sp d : In (PFFn id inputs variadic output) l ->
    let n := strip_bindgen_original_suffix id in let q := QN ns n in
    receiver ns sib n r -> get_original_name cb q = Ok o -> get_virtualness cb q = Ok v -> get_cpp_visibility cb q = Ok vis ->
    special_member_kind cb q = Ok sp -> get_deleted_or_defaulted cb q = Ok d ->
    made ns sib (PForeignMod l)
      (XA (AN q o) (XFunction (Func n inputs variadic output (option_map virtual_of v) (vis_of vis) (option_map special_of sp) r None None None
        (option_map explicit_of d)) PvOther None))
| m_error it id e : made ns sib it (XA (AN (QN ns (ctx_id (ctx_for_item B id))) None) (XIgnored e (Some (ctx_for_item B id)))).

Lemma rvalue_spec t : type_is_reference t true = true <-> rvalue_reference t.
Proof.
  unfold type_is_reference, rvalue_reference, marker_for_reference. destruct t; try (split; [discriminate|intros (? & ? & ? & E & _); discriminate E]).
  rewrite String.eqb_eq. split; [eauto|]. intros (? & ? & ? & E & H). injection E as -> -> ->. exact H.
Qed.
Lemma spot_rvalue_spec fs : spot_rvalue fs = true <-> exists f, In f fs /\ rvalue_reference (bf_ty f).
Proof.
  unfold spot_rvalue. rewrite existsb_exists. split; intros (f & H & E); exists f; (split; [exact H|]); apply rvalue_spec, E.
Qed.

Section Origin.
Variable G : xapi -> Prop.
Hypothesis GM : forall n, G (xmarker fc n).
Lemma G_push v x : Forall G v -> G x -> Forall G (xpush fc v x).
Proof.
  intros V X. unfold xpush. destruct (qmem _ _); [|apply Forall_app; auto]. destruct (x_ignored x); [exact V|].
  apply Forall_app. split; [|auto]. apply Forall_forall. intros y H. apply filter_In in H as [H _]. rewrite Forall_forall in V. auto.
Qed.
Lemma G_extend l : forall v, Forall G v -> Forall G l -> Forall G (xextend fc v l).
Proof. induction l as [|x l IH]; intros v V F; [exact V|]. inversion F; subst. cbn. apply IH; [apply G_push|]; auto. Qed.

Definition err_good (ns : list string) (r : res unit err_with_ctx) : Prop :=
  forall e c, r = Err (e, Some c) -> G (XA (AN (QN ns (ctx_id c)) None) (XIgnored e (Some c))).
Lemma G_report ns v r : Forall G v -> err_good ns r -> Forall G (x_report w ns v r).
Proof. intros V H. destruct r as [u|[e [c|]]]; cbn [x_report]; [exact V| |exact V]. apply G_push; [exact V|]. apply H. reflexivity. Qed.
Lemma err_ok ns : err_good ns (Ok tt). Proof. intros e c E. discriminate. Qed.

Definition fn_from (ns : list string) (it : pitem) (f : func * option string) : Prop :=
  exists l id inputs vd out, it = PForeignMod l /\ In (PFFn id inputs vd out) l /\
    func_of w (QN ns (strip_bindgen_original_suffix id)) inputs vd out = Some (fst f) /\
    get_original_name cb (QN ns (strip_bindgen_original_suffix id)) = Ok (snd f).
Definition cinv (ns : list string) (dn : list pitem) (cv : xconv) : Prop :=
  Forall (fun f => exists it, In it dn /\ fn_from ns it f) (xv_funcs cv) /\
  (forall k, receiver ns dn k (sget k (xv_receivers cv))) /\ Forall G (xv_ignored cv).
Lemma cinv_new ns : cinv ns [] xconv_new.
Proof. split; [constructor|]. split; [|constructor]. intros k b ty []. Qed.
Lemma receiver_more ns dn it k r : (forall ty, ~ has_method it ty k) -> receiver ns dn k r -> receiver ns (dn ++ [it]) k r.
Proof.
  intros N. destruct r as [q|]; cbn.
  - intros (b & ty & H & E). exists b, ty. split; [apply in_app_iff; auto|exact E].
  - intros H b ty I. apply in_app_iff in I as [I|[<-|[]]]; auto.
Qed.
Lemma cinv_more ns dn it cv : (forall ty k, ~ has_method it ty k) -> cinv ns dn cv -> cinv ns (dn ++ [it]) cv.
Proof.
  intros N (F & RC & IG). split; [|split; [|exact IG]].
  - eapply Forall_impl; [|exact F]. intros f (i & H & E). exists i. split; [apply in_app_iff; auto|exact E].
  - intros k. apply receiver_more; auto.
Qed.
Lemma not_impl it : (forall s fns, it <> PImpl s fns) -> forall ty k, ~ has_method it ty k.
Proof. intros N ty k (fns & f & E & _). exact (N _ _ E). Qed.

Section Level.
Variables (ns : list string) (l : list pitem).
Hypothesis HG : forall ns' sib it x, within ns l ns' sib it -> made ns' sib it x -> G x.
Lemma here it x : In it l -> made ns l it x -> G x.
Proof. intros I. apply HG. constructor. exact I. Qed.
Lemma err_here it e id : In it l -> err_good ns (Err (e, Some (ctx_for_item B id))).
Proof. intros I e' c E. injection E as <- <-. apply (here it); [exact I|]. apply m_error. Qed.
Lemma foreign_ok it fs0 : In it l -> it = PForeignMod fs0 -> forall fs funcs extra funcs' extra', (forall i, In i fs -> In i fs0) ->
  Forall G extra -> x_foreign_items w ns fs funcs extra = Some (funcs', extra') ->
  Forall G extra' /\ forall f, In f funcs' -> In f funcs \/ fn_from ns it f.
Proof.
  intros II EI. induction fs as [|i fs IH]; intros funcs extra funcs' extra' SUB GE E.
  - injection E as <- <-. auto.
  - cbn [x_foreign_items] in E. destruct (x_foreign_item w ns i funcs) as [[f1 r]|] eqn:X; [|discriminate].
    assert (S : err_good ns r /\ forall f, In f f1 -> In f funcs \/ fn_from ns it f).
    { destruct i as [id inputs vd out|id|]; cbn [x_foreign_item] in X.
      - destruct (func_of w _ inputs vd out) as [f|] eqn:FO; [|discriminate]. destruct (get_original_name cb _) as [o|] eqn:O; [|discriminate].
        injection X as <- <-. split; [apply err_ok|]. intros g I. apply in_app_iff in I as [I|[<-|[]]]; [auto|]. right.
        exists fs0, id, inputs, vd, out. split; [exact EI|]. split; [apply SUB; left; reflexivity|]. split; [exact FO|exact O].
      - injection X as <- <-. split; [apply (err_here it _ _ II)|auto].
      - injection X as <- <-. split; [intros e c E'; discriminate|auto]. }
    destruct S as [S1 S2]. apply IH in E; [|intros j J; apply SUB; right; exact J|apply G_report; assumption].
    destruct E as [E1 E2]. split; [exact E1|]. intros f I. destruct (E2 f I) as [J|J]; auto.
Qed.
Lemma api_name_ok id n : PB.api_name cb ns id = Some n -> exists o, get_original_name cb (QN ns id) = Ok o /\ n = AN (QN ns id) o.
Proof. unfold PB.api_name. destruct (get_original_name _ _) as [o|]; [|discriminate]. intros E. injection E as <-. eauto. Qed.
Lemma qualified_ok id r : PB.api_name_qualified B L R cb ns id = Some r ->
  match r with Ok n => exists o, get_original_name cb (QN ns id) = Ok o /\ n = AN (QN ns id) o | Err e => exists c, e = (c, Some (ctx_for_item B id)) end.
Proof.
  unfold PB.api_name_qualified. destruct (validate_ident_ok_for_cxx L R id) as [|e|]; [| |discriminate].
  - destruct (PB.api_name cb ns id) as [n|] eqn:A; [|discriminate]. intros E. injection E as <-. apply api_name_ok, A.
  - intros E. injection E as <-. eauto.
Qed.
Lemma fatal_ctx q e c : PB.fatal_attrs B cb q = Some (Some (e, c)) -> c = Some (ctx_for_item B (qn_item q)).
Proof.
  unfold PB.fatal_attrs. destruct (discards_template_param cb q) as [[|]|]; [intros E; injection E as <- <-; reflexivity| |discriminate].
  destruct (get_cpp_visibility cb q) as [[| |]|]; try discriminate; intros E; injection E as <- <-; reflexivity.
Qed.
Lemma struct_ok id g fields v v' r : In (PStruct id g fields) l -> Forall G v -> x_struct w ns id g fields v = Some (v', r) -> Forall G v' /\ err_good ns r.
Proof.
  intros I V. unfold x_struct. destruct (ends_with _ _); [intros E; injection E as <- <-; split; [exact V|apply err_ok]|].
  destruct (PB.api_name_qualified B L R cb ns id) as [[name|e]|] eqn:Q; [| |discriminate]; apply qualified_ok in Q.
  2: { destruct Q as [c ->]. intros E. injection E as <- <-. split; [exact V|]. apply (err_here _ _ _ I). }
  destruct Q as (o & O & ->). cbn [an_name].
  destruct (is_known_substitute_type _); [intros E; injection E as <- <-; split; [exact V|apply err_ok]|].
  destruct (PB.fatal_attrs B cb _) as [err|] eqn:FA; [|discriminate]. cbv zeta.
  destruct (_ || is_known_type _) eqn:K; [intros E; injection E as <- <-; split; [exact V|apply err_ok]|].
  apply orb_false_iff in K as [_ K].
  match goal with |- context [if ?b then Some _ else _] => destruct b end; cbn [xname x_info an_name];
    (destruct (CF.is_on_blocklist _ _); intros E; injection E as <- <-; (split; [|apply err_ok]); [exact V|]); apply G_push; try exact V; apply (here _ _ I).
  - apply m_forward; [exact O|exact K|]. intros e c E. destruct err as [[e' c']|].
    + injection E as -> ->. apply fatal_ctx in FA. exact FA.
    + destruct (PB.is_nested _); [|discriminate]. injection E as <- <-. reflexivity.
  - apply m_struct; [exact O|exact K|]. apply spot_rvalue_spec.
Qed.
Lemma use_ok segs tail v v' r : In (PUse segs tail) l -> Forall G v -> x_use w ns segs tail v = Some (v', r) -> Forall G v' /\ err_good ns r.
Proof.
  intros I V. unfold x_use. destruct tail as [i|old new|]; [intros E; injection E as <- <-; split; [exact V|apply err_ok]| |intros E; injection E as <- <-; split; [exact V|apply err_ok]].
  destruct (String.eqb new _); [intros E; injection E as <- <-; split; [exact V|apply err_ok]|]. destruct segs as [|s1 [|s2 rest]]; [discriminate..|].
  destruct (String.eqb s1 "self" && String.eqb s2 "super") eqn:S; [|discriminate]. apply andb_true_iff in S as [S1 S2]. apply String.eqb_eq in S1, S2. subst s1 s2.
  destruct (path_name rest old) as [q|] eqn:P; [|discriminate]. destruct (qn_eqb (QN ns new) q) eqn:Q.
  - intros E. injection E as <- <-. split; [exact V|]. apply (err_here _ _ _ I).
  - destruct (PB.api_name cb ns new) as [n|] eqn:A; [|discriminate]. apply api_name_ok in A as (o & O & ->). intros E. injection E as <- <-.
    split; [|apply err_ok]. apply G_push; [exact V|]. apply (here _ _ I). apply m_use; [exact O|exact P|]. apply qn_eqb_neq in Q. congruence.
Qed.
Lemma leaf_ok it dn v cv v' cv' r : In it l -> (forall id s, it <> PMod id s) -> Forall G v -> cinv ns dn cv -> x_leaf w it ns v cv = Some (v', cv', r) ->
  Forall G v' /\ cinv ns (dn ++ [it]) cv' /\ err_good ns r.
Proof.
  intros I NM V C. destruct it as [fs|id g fields|id|s fns|id l'|id|segs tail|id t|id g t|]; cbn [x_leaf].
  - unfold x_foreign_mod. destruct (x_foreign_items _ _ _ _ _) as [[funcs extra]|] eqn:X; [|discriminate]. intros E. injection E as <- <- <-.
    destruct (foreign_ok _ fs I eq_refl fs _ _ _ _ (fun i H => H) (Forall_nil _) X) as [X1 X2].
    split; [exact V|]. split; [|apply err_ok]. destruct C as (F & RC & IG). split; [|split; [|apply G_extend; assumption]].
    + cbn [xv_funcs]. apply Forall_forall. intros f J. rewrite Forall_forall in F. destruct (X2 f J) as [K|K].
      * destruct (F f K) as (i & H & E). exists i. split; [apply in_app_iff; auto|exact E].
      * exists (PForeignMod fs). split; [apply in_app_iff; right; left; reflexivity|exact K].
    + intros k. apply receiver_more; [|apply RC]. intros ty. apply not_impl. discriminate.
  - destruct (x_struct _ _ _ _ _ _) as [[a r']|] eqn:X; [|discriminate]. intros E. injection E as <- <- <-. apply struct_ok in X as [X1 X2]; [|exact I|exact V].
    split; [exact X1|]. split; [|exact X2]. apply cinv_more; [|exact C]. apply not_impl. discriminate.
  - assert (M : cinv ns (dn ++ [PEnum id]) cv) by (apply cinv_more; [apply not_impl; discriminate|exact C]).
    destruct (PB.api_name_qualified B L R cb ns id) as [[name|e]|] eqn:Q; [| |discriminate]; apply qualified_ok in Q; intros E; injection E as <- <- <-.
    + destruct Q as (o & O & ->). split; [|split; [exact M|apply err_ok]]. destruct (CF.is_on_blocklist _ _); [exact V|]. apply G_push; [exact V|].
      apply (here _ _ I). apply m_enum, O.
    + destruct Q as [c ->]. split; [exact V|]. split; [exact M|]. apply (err_here _ _ _ I).
  - intros E. injection E as <- <- <-. split; [exact V|]. split; [|apply err_ok]. destruct C as (F & RC & IG).
    assert (F' : Forall (fun f => exists it, In it (dn ++ [PImpl s fns]) /\ fn_from ns it f) (xv_funcs cv)).
    { eapply Forall_impl; [|exact F]. intros f (i & H & E). exists i. split; [apply in_app_iff; auto|exact E]. }
    unfold x_impl. destruct s as [ty|].
    + split; [exact F'|]. split; [|exact IG]. cbn [xv_receivers]. intros k.
      assert (S : forall fs m, (exists f, In f fs /\ PB.effective_fun_name f = k) /\ sget k (fold_left (fun m f => CF.minsert (PB.effective_fun_name f) (QN ns ty) m) fs m) = Some (QN ns ty) \/
        (forall f, In f fs -> PB.effective_fun_name f <> k) /\ sget k (fold_left (fun m f => CF.minsert (PB.effective_fun_name f) (QN ns ty) m) fs m) = sget k m).
      { induction fs as [|f fs IH]; intros m; [right; split; [intros f []|reflexivity]|]. cbn [fold_left].
        destruct (IH (CF.minsert (PB.effective_fun_name f) (QN ns ty) m)) as [[(g & J & E) S]|[N S]].
        - left. split; [exists g; split; [right; exact J|exact E]|exact S].
        - rewrite ParseBindgenProofs.sget_minsert in S. destruct (String.eqb_spec k (PB.effective_fun_name f)) as [->|NE].
          + left. split; [exists f; split; [left; reflexivity|reflexivity]|exact S].
          + right. split; [|exact S]. intros g [<-|J]; [congruence|auto]. }
      destruct (S fns (xv_receivers cv)) as [[(f & J & E) ->]|[N ->]].
      * cbn. exists (PImpl (Some ty) fns), ty. split; [apply in_app_iff; right; left; reflexivity|]. split; [|reflexivity]. exists fns, f. split; [reflexivity|]. split; [exact J|]. symmetry. exact E.
      * apply receiver_more; [|apply RC]. intros ty' (fns' & f & E & J & EK). injection E as <- <-. apply (N f J). symmetry. exact EK.
    + split; [exact F'|]. split; [|exact IG]. intros k. apply receiver_more; [|apply RC]. intros ty (fns' & f & E & _). discriminate.
  - elim (NM _ _ eq_refl).
  - intros E. injection E as <- <- <-. split; [exact V|]. split; [|apply err_ok]. apply cinv_more; [|exact C]. apply not_impl. discriminate.
  - destruct (x_use _ _ _ _ _) as [[a r']|] eqn:X; [|discriminate]. intros E. injection E as <- <- <-. apply use_ok in X as [X1 X2]; [|exact I|exact V].
    split; [exact X1|]. split; [|exact X2]. apply cinv_more; [|exact C]. apply not_impl. discriminate.
  - assert (M : cinv ns (dn ++ [PConst id t]) cv) by (apply cinv_more; [apply not_impl; discriminate|exact C]).
    destruct (match t with Some t => _ | None => _ end); [|intros E; injection E as <- <- <-; split; [exact V|]; split; [exact M|apply err_ok]|discriminate].
    destruct (PB.api_name cb ns id) as [n|] eqn:A; [|discriminate]. apply api_name_ok in A as (o & O & ->). intros E. injection E as <- <- <-.
    split; [|split; [exact M|apply err_ok]]. apply G_push; [exact V|]. apply (here _ _ I). apply m_const, O.
  - assert (M : cinv ns (dn ++ [PType id g t]) cv) by (apply cinv_more; [apply not_impl; discriminate|exact C]).
    destruct (PB.api_name cb ns id) as [n|] eqn:A; [|discriminate]. apply api_name_ok in A as (o & O & ->). intros E. injection E as <- <- <-.
    split; [|split; [exact M|apply err_ok]]. apply G_push; [exact V|]. apply (here _ _ I). apply m_type, O.
  - intros E. injection E as <- <- <-. split; [exact V|]. split; [apply cinv_more; [apply not_impl; discriminate|exact C]|]. intros e c E. discriminate.
Qed.
Lemma finished_ok cv v : cinv ns l cv -> Forall G v -> Forall G (x_finished w ns cv v).
Proof.
  intros (F & RC & IG) V. unfold x_finished. apply G_extend; [apply G_extend; assumption|]. apply Forall_forall. intros x J.
  apply in_map_iff in J as ((f & o) & <- & J). rewrite Forall_forall in F. destruct (F _ J) as (it & II & fs & id & inputs & vd & out & -> & J' & FO & O).
  cbn [fst snd] in *. unfold x_finished_fn. cbn [fst snd]. unfold func_of in FO.
  destruct (get_virtualness cb _) as [vt|] eqn:V1; [|discriminate]. destruct (get_cpp_visibility cb _) as [vis|] eqn:V2; [|discriminate].
  destruct (special_member_kind cb _) as [sp|] eqn:V3; [|discriminate]. destruct (get_deleted_or_defaulted cb _) as [dl|] eqn:V4; [|discriminate].
  injection FO as <-. cbn [f_ident qn_item with_self]. apply (here _ _ II). unfold with_self. cbn.
  apply (m_fn ns l fs id inputs vd out _ o vt vis sp dl J'); auto.
Qed.
End Level.

Definition item_ok (it : pitem) : Prop := forall ns l dn v cv v' cv' r, In it l ->
  (forall ns' sib it x, within ns l ns' sib it -> made ns' sib it x -> G x) -> Forall G v -> cinv ns dn cv ->
  x_item w it ns v cv = Some (v', cv', r) -> Forall G v' /\ cinv ns (dn ++ [it]) cv' /\ err_good ns r.
Lemma loop_ok ns l : (forall ns' sib it x, within ns l ns' sib it -> made ns' sib it x -> G x) ->
  forall rest, Forall item_ok rest -> (forall i, In i rest -> In i l) -> forall dn v cv more v' cv' more', Forall G v -> cinv ns dn cv -> Forall G more ->
  x_loop w ns rest v cv more = Some (v', cv', more') -> Forall G v' /\ cinv ns (dn ++ rest) cv' /\ Forall G more'.
Proof.
  intros HG. induction rest as [|i rest IH]; intros F SUB dn v cv more v' cv' more' V C M E.
  - injection E as <- <- <-. rewrite app_nil_r. auto.
  - inversion F as [|? ? F1 F2]; subst. cbn [x_loop] in E. destruct (x_item w i ns v cv) as [[[a b] r]|] eqn:X; [|discriminate].
    destruct (F1 ns l dn v cv a b r (SUB i (or_introl eq_refl)) HG V C X) as (A1 & A2 & A3).
    replace (dn ++ i :: rest) with ((dn ++ [i]) ++ rest) by (rewrite <- app_assoc; reflexivity).
    apply (IH F2 (fun j J => SUB j (or_intror J)) _ _ _ _ _ _ _ A1 A2 (G_report ns more r M A3) E).
Qed.
Lemma all_ok it : item_ok it.
Proof.
  induction it as [it NM|id sub F] using pitem_ind'; intros ns l dn v cv v' cv' r I HG V C E.
  - rewrite x_item_leaf in E by exact NM. eapply leaf_ok; eauto.
  - rewrite x_item_mod in E. destruct (x_loop w (ns ++ [id]) sub v xconv_new []) as [[[a b] m]|] eqn:X; [|discriminate]. injection E as <- <- <-.
    assert (HG' : forall ns' sib it x, within (ns ++ [id]) sub ns' sib it -> made ns' sib it x -> G x).
    { intros ns' sib it x W. apply HG. eapply w_sub; eauto. }
    destruct (loop_ok _ sub HG' sub F (fun i H => H) [] _ _ _ _ _ _ V (cinv_new _) (Forall_nil _) X) as (A1 & A2 & A3).
    split; [|split; [|apply err_ok]].
    + apply (finished_ok (ns ++ [id]) sub HG'); [exact A2|]. apply G_extend; assumption.
    + apply cinv_more; [apply not_impl; discriminate|exact C].
Qed.
Lemma mod_items_ok ns l v v' : (forall ns' sib it x, within ns l ns' sib it -> made ns' sib it x -> G x) -> Forall G v ->
  x_mod_items w ns l v = Some v' -> Forall G v'.
Proof.
  intros HG V. unfold x_mod_items. destruct (x_loop _ _ _ _ _ _) as [[[a b] m]|] eqn:X; [|discriminate]. intros E. injection E as <-.
  assert (F : Forall item_ok l) by (apply Forall_forall; intros; apply all_ok).
  destruct (loop_ok ns l HG l F (fun i H => H) [] _ _ _ _ _ _ V (cinv_new _) (Forall_nil _) X) as (A1 & A2 & A3).
  apply (finished_ok ns l HG); [exact A2|]. apply G_extend; assumption.
Qed.
End Origin.

(** What the configuration makes. *)
Inductive configured : xapi -> Prop :=
| cf_string : CF.cf_exclude_utilities cfg = false -> configured (XA (AN (QN [] (CF.get_makestring_name (w_hash w) cfg)) None) XStringConstructor)
| cf_subclass s : In s (CF.cf_subclasses cfg) ->
    configured (XA (AN (QN [] (CF.sc_subclass s)) None) (XSubclass (new_from_cpp_name (CF.sc_superclass s))))
| cf_rust_fun f ds : In f (CF.cf_extern_rust_funs cfg) -> w_fun_deps w f = XOk ds ->
    configured (XA (AN (QN [] (CF.sig_ident (CF.rf_sig f))) None) (XRustFn ds))
| cf_rust_type p : In p (CF.cf_rust_types cfg) -> configured (XA (AN (QN [] (last p "")) None) XRustType)
| cf_concrete def id : In (def, id) (CF.cf_concretes cfg) -> configured (XA (AN (QN [] id) None) (XConcrete def None))
| cf_extern cpp e pod : In (cpp, e) (CF.cf_externs cfg) -> let q := new_from_cpp_name cpp in
    (pod = true <-> In (to_cpp_name q) (CF.cf_pod_requests cfg)) -> configured (XA (AN q None) (XExternCppType pod (CF.et_opaque e))).

Definition items_of_root (items : list pitem) : list pitem := match x_root items with Some (Some l) => l | _ => [] end.
Lemma smem_In s l : smem s l = true <-> In s l.
Proof. unfold smem. rewrite existsb_exists. split; [intros (x & H & E); apply String.eqb_eq in E; subst; exact H|intros H; exists s; split; [exact H|apply String.eqb_refl]]. Qed.
Lemma parse_origin items l : x_parse w items = PB.ODone l -> Forall (fun x => configured x \/ x = xmarker fc (xname x) \/
  exists ns sib it, within [] (items_of_root items) ns sib it /\ made ns sib it x) l.
Proof.
  intros H. set (G := fun x => _).
  assert (GM : forall n, G (xmarker fc n)) by (intros n; right; left; reflexivity).
  unfold x_parse in H. destruct (x_root items) as [root|] eqn:XR; [|discriminate]. cbv zeta in H.
  set (v0 := if CF.cf_exclude_utilities cfg then _ else _) in H.
  assert (V0 : Forall G v0). { unfold v0. destruct (CF.cf_exclude_utilities cfg) eqn:U; [constructor|]. apply G_push; [exact GM|constructor|]. left. apply cf_string, U. }
  clearbody v0. destruct (x_from_config w v0) as [v1|e|] eqn:C; [|discriminate..].
  assert (V1 : Forall G v1).
  { unfold x_from_config in C. cbv zeta in C. set (va := xextend fc v0 _) in C.
    assert (VA : Forall G va). { apply G_extend; [exact GM|exact V0|]. apply Forall_forall. intros x J. apply in_map_iff in J as (s & <- & J). left. apply cf_subclass, J. }
    clearbody va. destruct (x_rust_funs w (CF.cf_extern_rust_funs cfg) va) as [vb|e|] eqn:RF; [|discriminate..]. injection C as <-.
    assert (VB : Forall G vb).
    { assert (S : forall fs v, (forall f, In f fs -> In f (CF.cf_extern_rust_funs cfg)) -> Forall G v -> x_rust_funs w fs v = PB.ODone vb -> Forall G vb).
      { induction fs as [|f fs IH]; intros v SUB V E; [injection E as <-; exact V|]. cbn [x_rust_funs] in E. destruct (w_fun_deps w f) as [ds|e|] eqn:D; [|discriminate..].
        apply IH in E; [exact E|intros g J; apply SUB; right; exact J|]. apply G_push; [exact GM|exact V|]. left. apply cf_rust_fun; [apply SUB; left; reflexivity|exact D]. }
      apply (S _ _ (fun f J => J) VA RF). }
    apply G_extend; [exact GM|apply G_extend; [exact GM|exact VB|]|]; apply Forall_forall; intros x J; apply in_map_iff in J as (p & <- & J); left.
    - apply cf_rust_type. unfold PB.dedup in J. apply (ParseBindgenProofs.dedup_aux_In B L R cfg (w_hash w)) in J as [J _]. exact J.
    - destruct p as [def id]. apply cf_concrete, J. }
  clear C. destruct (x_mod_items w [] _ v1) as [v2|] eqn:M; [|discriminate].
  assert (V2 : Forall G v2).
  { eapply (mod_items_ok G GM); [|exact V1|exact M]. intros ns' sib it x W MD. right. right. exists ns', sib, it. split; [|exact MD].
    unfold items_of_root. rewrite XR. destruct root; exact W. }
  destruct (x_unobeyed w v2); [discriminate|]. injection H as <-. unfold x_replace_extern. apply G_extend; [exact GM| |].
  - apply Forall_forall. intros x J. apply filter_In in J as [J _]. rewrite Forall_forall in V2. auto.
  - unfold x_replacements.
    assert (S : forall es m, (forall e, In e es -> In e (CF.cf_externs cfg)) -> Forall G (map snd m) ->
      Forall G (map snd (fold_left (fun m kv => let qn := new_from_cpp_name (fst kv) in
        qset qn (XA (AN qn None) (XExternCppType (smem (to_cpp_name qn) (CF.cf_pod_requests cfg)) (CF.et_opaque (snd kv)))) m) es m))).
    { induction es as [|e es IH]; intros m SUB V; [exact V|]. cbn [fold_left]. apply IH; [intros g J; apply SUB; right; exact J|]. cbv zeta.
      set (x := XA _ _). assert (X : G x). { left. destruct e as [cpp e]. apply (cf_extern cpp e); [apply SUB; left; reflexivity|apply smem_In]. }
      clearbody x. clear IH. induction m as [|[a y] m IHm]; cbn; [constructor; auto|]. inversion V; subst.
      destruct (qn_eqb _ a); cbn; constructor; auto. }
    apply S; [auto|constructor].
Qed.
End S.
