(** C90: from bindgen's items to the functions told to cxx. *)
From Coq Require Import Relations Permutation.
From Verif Require Import Base QNamesModel KnownTypesModel KnownTypesProofs ApiModel ApiSpec ApiVecModel ApiVecProofs NameCheckModel CallbacksModel
  ErrorReporterModel ExternFunModel TypesModel TypesSpec TypedefsModel TypedefsProofs TypedefsProps CppTypesModel ConcreteNamesModel TypeConverterModel
  TypeConverterProofs TypeConverterProps TypeConverterDepsProps ByValueModel ConversionModel SynthNamesModel TrackersModel
  FnAnalysisModel FnAnalysisProofs SubclassGenModel KeptProofs RemoveIgnoredModel GcModel GcProofs PipelineModel PipelineProofs PipelineProps
  FrontModel FrontProofs FnDriverModel FnDriverProofs FnDriverProps UnqualifyModel UnqualifyProofs FnCodegenModel
  CppGenModel CalledModel RsGenModel KeptProps ListedProps RsGenProps BridgeTypesProofs BridgeTypesProps ParseFullModel ParseFullProofs.
From Verif Require FrontProps ParseBindgenProps.

(** * Parsing *)
(** Parsing with the contents of the items does what parsing without them does: it fails alike, and it gives the same APIs in the same
    order. So what C51, C52, C56 and C68 say about the latter holds of the former. *)
Theorem c90_same_apis : forall w items,
  match x_parse w items, PB.parse_items (w_builtin w) (w_lexes w) (w_reserved w) (w_cb w) (w_cfg w) (w_hash w) (w_fun_deps w) (map forget items) with
  | PB.ODone l, PB.ODone v => av_wf v /\ av_apis v = map bare l
  | PB.OFail e, PB.OFail e' => e = e'
  | PB.OPanic, PB.OPanic => True
  | _, _ => False
  end.
Proof. intros w items. exact (parse_same w items). Qed.
Print Assumptions c90_same_apis.

(** Every API which comes out of parsing is one the configuration asks for, the mark of a clash of names, or what one of the items makes:
    its name is where the item is, its contents are those of the item, and what is known of it is what the callbacks were told. *)
Theorem c90_contents : forall w items l, x_parse w items = PB.ODone l ->
  forall x, In x l -> configured w x \/ x = xmarker (front_cfg w) (xname x) \/
    exists ns sib it, within [] (items_of_root items) ns sib it /\ made w ns sib it x.
Proof. intros w items l H. apply Forall_forall. exact (parse_origin w items l H). Qed.
Print Assumptions c90_contents.

(** No enum, typedef or renaming in the items has the name of a known type, and nor has what the configuration asks for. (Parsing itself
    leaves out structs which have.) *)
Definition source_own (w : world) (items : list pitem) : Prop :=
  (forall ns sib it, within [] (items_of_root items) ns sib it ->
     match it with
     | PEnum id | PType id _ _ => ~ known_name (QN ns id)
     | PUse _ (PB.URename _ id) => ~ known_name (QN ns id)
     | _ => True
     end) /\
  forall x, configured w x -> x_is_type x = true -> ~ known_name (xname x).

(** What the later phases were proved to need of the APIs holds of those parsing gives. *)
Theorem c90_well_formed : forall w items l ctors, x_parse w items = PB.ODone l ->
  NoDup (map xname l) /\ FrontProps.parsed l /\ uses_named l /\ Forall filed l /\ Forall (placed (rust_options w ctors)) l /\
  (source_own w items -> own_names l).
Proof.
  intros w items l ctors H. pose proof (c90_contents w items l H) as O. split; [|split; [|split; [|split; [|split]]]].
  - pose proof (parse_same w items) as S. rewrite H in S. unfold same_outcome in S. destruct (PB.parse_items _ _ _ _ _ _ _ _) as [v|e|]; try contradiction.
    destruct S as [W E]. destruct W as [W _]. rewrite E, map_map in W. exact W.
  - intros x i o a I K. destruct (O x I) as [C|[E|(ns & sib & it & _ & M)]]; [inversion C; subst; discriminate|rewrite E in K; discriminate|].
    inversion M; subst; cbn in K; congruence.
  - intros x t o a I K. destruct (O x I) as [C|[E|(ns & sib & it & _ & M)]]; [inversion C; subst; discriminate|rewrite E in K; discriminate|].
    inversion M; subst; cbn in K; try discriminate. injection K as <- <- <-. exists segs, old, q. split; [reflexivity|]. split; [reflexivity|].
    apply path_name_spec. assumption.
  - apply Forall_forall. intros x I. destruct (O x I) as [C|[E|(ns & sib & it & _ & M)]].
    + apply filed_plain; inversion C; subst; try reflexivity; discriminate.
    + rewrite E. apply filed_marker.
    + inversion M; subst; try (apply filed_plain; [reflexivity|discriminate|discriminate]).
      * split; [|discriminate]. intros e c [E|E]; [discriminate|]. injection E as E. rewrite (H2 e c E). apply (about_item (w_builtin w) (QN ns id)).
      * split; [|discriminate]. intros e0 c [E|E]; [|discriminate]. injection E as _ <-. unfold ctx_for_item. destruct (w_builtin w id); cbn; auto.
  - apply Forall_forall. intros x I. destruct (O x I) as [C|[E|(ns & sib & it & _ & M)]].
    + inversion C; subst; (split; [intros E; try discriminate E | intros sup E; try discriminate E]); reflexivity.
    + rewrite E. apply placed_plain; discriminate.
    + inversion M; subst; apply placed_plain; discriminate.
  - intros [SI SC] x I T. destruct (O x I) as [C|[E|(ns & sib & it & W & M)]]; [apply SC; assumption|rewrite E in T; discriminate|].
    pose proof (SI _ _ _ W) as N.
    assert (KN : forall q, is_known_type q = false -> ~ known_name q).
    { intros q F K. apply known_name_get in K as (td & K). unfold is_known_type in F. rewrite K in F. discriminate. }
    destruct M; try discriminate T; unfold xname; cbn [x_info an_name]; first [apply KN; assumption | assumption].
Qed.
Print Assumptions c90_well_formed.

(** What is known of a function after parsing is what the callbacks were told of the item of its name: who can see it, whether it is virtual, which
    special member it is, and whether it is deleted or defaulted. *)
Theorem c90_attributes : forall w items l x f pv an, x_parse w items = PB.ODone l -> In x l -> x_kind x = XFunction f pv an ->
  let cb := w_cb w in let q := xname x in
  (f_vis f = VisPublic <-> get_cpp_visibility cb q = Ok CbPublic) /\ (f_vis f = VisProtected <-> get_cpp_visibility cb q = Ok CbProtected) /\
  (f_vis f = VisPrivate <-> get_cpp_visibility cb q = Ok CbPrivate) /\
  (f_virtual f = None <-> get_virtualness cb q = Ok None) /\ (f_virtual f = Some VtVirtual <-> get_virtualness cb q = Ok (Some CbVirtual)) /\
  (f_virtual f = Some VtPure <-> get_virtualness cb q = Ok (Some CbPureVirtual)) /\
  (f_special f = None <-> special_member_kind cb q = Ok None) /\ (f_special f = Some SmDefault <-> special_member_kind cb q = Ok (Some CbDefaultCtor)) /\
  (f_special f = Some SmCopy <-> special_member_kind cb q = Ok (Some CbCopyCtor)) /\ (f_special f = Some SmMove <-> special_member_kind cb q = Ok (Some CbMoveCtor)) /\
  (f_special f = Some SmDtor <-> special_member_kind cb q = Ok (Some CbDtor)) /\ (f_special f = Some SmAssign <-> special_member_kind cb q = Ok (Some CbAssign)) /\
  (f_deleted f = None <-> get_deleted_or_defaulted cb q = Ok None) /\ (f_deleted f = Some ExDeleted <-> get_deleted_or_defaulted cb q = Ok (Some CbDeleted)) /\
  (f_deleted f = Some ExDefaulted <-> get_deleted_or_defaulted cb q = Ok (Some CbDefaulted)).
Proof.
  intros w items l x f pv an H I K cb q. subst cb q.
  destruct (c90_contents w items l H x I) as [C|[E|(ns & sib & it & _ & M)]]; [inversion C; subst; discriminate K|rewrite E in K; discriminate K|].
  inversion M as [| | | | | |ls id inputs variadic output r o v vis sp d IL n q R O V VS SP D|]; subst; try discriminate K. cbn in K. injection K as <- _ _. unfold xname. cbn -[get_cpp_visibility get_virtualness special_member_kind get_deleted_or_defaulted].
  fold n. fold q. rewrite V, VS, SP, D. destruct v as [[]|], vis, sp as [[]|], d as [[]|]; cbn; repeat split; congruence.
Qed.
Print Assumptions c90_attributes.

(** What the phases after parsing are told of the configuration. *)
Theorem c90_settings : forall w ctors, let c := w_cfg w in let d := driver_cfg w in let o := rust_options w ctors in
  (dc_policy d = ro_policy o) /\ (dc_policy d = AllFunctionsUnsafe <-> CF.cf_policy c = CF.AllFunctionsUnsafe) /\
  (dc_policy d = AllFunctionsSafe <-> CF.cf_policy c = CF.AllFunctionsSafe) /\
  (dc_policy d = ReferencesWrapped <-> CF.cf_policy c = CF.ReferencesWrappedAllFunctionsSafe) /\
  (forall n, dc_ctor_blocked d n = true <-> In n (CF.cf_constructor_blocklist c)) /\ (forall n, ac_blocked (dc_front d) n = true <-> In n (CF.cf_blocklist c)) /\
  (forall n, In n (ac_pods (dc_front d)) <-> In n (CF.cf_pod_requests c)) /\ (forall n, In n (ac_instantiable (dc_front d)) <-> In n (CF.cf_instantiable c)) /\
  (dc_exclude_impls d = true <-> CF.cf_exclude_impls c = true) /\ (ro_exclude_impls o = true <-> CF.cf_exclude_impls c = true) /\
  (dc_no_utilities d = true <-> CF.cf_exclude_utilities c = true) /\
  (forall q, In q (ro_superclasses o) <-> exists s, In s (CF.cf_subclasses c) /\ q = new_from_cpp_name (CF.sc_superclass s)).
Proof.
  intros w ctors c d o. subst c d o.
  unfold driver_cfg, rust_options, front_cfg, CF.is_on_constructor_blocklist, CF.is_on_blocklist, CF.superclasses.
  cbn [dc_policy ro_policy dc_ctor_blocked dc_front ac_blocked ac_pods ac_instantiable dc_exclude_impls ro_exclude_impls dc_no_utilities ro_superclasses].
  split; [reflexivity|]. split; [destruct (CF.cf_policy (w_cfg w)); cbn; split; congruence|]. split; [destruct (CF.cf_policy (w_cfg w)); cbn; split; congruence|].
  split; [destruct (CF.cf_policy (w_cfg w)); cbn; split; congruence|].
  split; [intros n; apply smem_In|]. split; [intros n; apply smem_In|]. do 5 (split; [try intros n; reflexivity|]).
  intros q. rewrite in_map_iff. split.
  - intros (n & <- & I). apply nodup_In, in_map_iff in I as (s & <- & J). eauto.
  - intros (s & J & ->). exists (CF.sc_superclass s). split; [reflexivity|]. apply nodup_In, in_map, J.
Qed.
Print Assumptions c90_settings.

(** * To the code told to cxx *)
Lemma converted_parts w items fl : converted w items = Some fl -> exists l l1 r found,
  x_parse w items = PB.ODone l /\ front (front_cfg w) l = OOk l1 /\ analyze_functions_x (driver_cfg w) l1 = OOk (r, found) /\
  final_apis (driver_cfg w) l = Some fl.
Proof.
  unfold converted. destruct (x_parse w items) as [l|e|]; [|discriminate..]. intros H. pose proof H as FL. unfold final_apis, analyzed in H.
  change (dc_front (driver_cfg w)) with (front_cfg w) in H. destruct (front (front_cfg w) l) as [l1| | |] eqn:FR; try discriminate H.
  destruct (analyze_functions_x (driver_cfg w) l1) as [[r found]| | |] eqn:AN; try discriminate H. exists l, l1, r, found. auto.
Qed.

Section Sources.
Variables (w : world) (items : list pitem).
(** A struct bindgen declares. *)
Definition declared_struct (q : qname) (g : list string) (fs : list bindgen_field) : Prop :=
  exists ns sib id, within [] (items_of_root items) ns sib (PStruct id g fs) /\ q = QN ns id.
(** A subclass the configuration asks for. *)
Definition asked_subclass (q sup : qname) : Prop :=
  exists s, In s (CF.cf_subclasses (w_cfg w)) /\ q = QN [] (CF.sc_subclass s) /\ sup = new_from_cpp_name (CF.sc_superclass s).
(** A type room is made for: a struct, or the C++ side of a subclass. *)
Definition stored (q : qname) : Prop :=
  (exists g fs, declared_struct q g fs) \/ exists sub sup, asked_subclass sub sup /\ q = QN [] (qn_item sub +++ "Cpp").
(** The functions there may be:
    those bindgen declares, as it declares them;
    for each type room is made for, one to make it and one to free it;
    for a struct and a public base of it, a cast;
    the special members C++ declares by itself, for a struct;
    for a subclass the configuration asks for, its version of a virtual function, with the same types, and its version of a constructor,
    with one more parameter. *)
Inductive sourced : func -> Prop :=
| so_declared ns sib it n f : within [] (items_of_root items) ns sib it -> made w ns sib it (XA n (XFunction f PvOther None)) -> sourced f
| so_alloc q f : stored q -> f_inputs f = [] -> f_output f = Some (TPtr true (to_type_path q)) -> f_synthetic f = Some (CbAlloc q, CkFunction) -> sourced f
| so_free q f : stored q -> f_inputs f = [("arg0", TPtr true (to_type_path q))] -> f_output f = None -> f_synthetic f = Some (CbFree q, CkFunction) -> sourced f
| so_cast q g fs rv b f : declared_struct q g fs -> FrontProps.declares_base (SD fs rv g) b true ->
    f_inputs f = [("this", TPtr false (to_type_path q))] ->
    f_output f = Some (TPath [] "__bindgen_marker_Reference" [TPtr false (to_type_path b)]) -> f_self_ty f = Some q -> sourced f
| so_special q g fs m f : declared_struct q g fs -> f_self_ty f = Some q -> f_output f = None -> f_special f = Some m ->
    hd_error (f_inputs f) = Some ("this", TPtr true (to_type_path q)) -> List.length (f_inputs f) <= 2 -> sourced f
| so_super sub sup f f' : sourced f -> asked_subclass sub sup -> f_inputs f' = f_inputs f -> f_output f' = f_output f ->
    f_self_ty f' = Some (QN (qn_ns sub) (qn_item sub +++ "Cpp")) -> sourced f'
| so_ctor sub sup f f' : sourced f -> asked_subclass sub sup -> List.length (f_inputs f') = S (List.length (f_inputs f)) ->
    f_self_ty f' = Some (QN (qn_ns sub) (qn_item sub +++ "Cpp")) -> sourced f'.

Section Run.
Variables (l l1 r : list xapi) (found : list (qname * IC.items)).
Hypothesis PA : x_parse w items = PB.ODone l.
Hypothesis FR : front (front_cfg w) l = OOk l1.
Hypothesis AN : analyze_functions_x (driver_cfg w) l1 = OOk (r, found).
Let ND : NoDup (map xname l). Proof. exact (proj1 (c90_well_formed w items l (fun _ => (true, true)) PA)). Qed.
Lemma struct_declared x d a : In x l -> x_kind x = XStruct d a -> exists g fs rv, d = SD fs rv g /\ declared_struct (xname x) g fs.
Proof.
  intros I K. destruct (c90_contents _ _ _ PA x I) as [C|[E|(ns & sib & it & W & M)]].
  - destruct C; discriminate.
  - rewrite E in K. discriminate.
  - destruct M; try discriminate K. injection K as <- <-. exists g, fields, rv. split; [reflexivity|]. exists ns, sib, id. auto.
Qed.
Lemma subclass_asked x sup : In x l -> x_kind x = XSubclass sup -> asked_subclass (xname x) sup.
Proof.
  intros I K. destruct (c90_contents _ _ _ PA x I) as [C|[E|(ns & sib & it & W & M)]].
  - destruct C; try discriminate. injection K as <-. exists s. auto.
  - rewrite E in K. discriminate.
  - destruct M; discriminate K.
Qed.
Lemma function_declared x f pv a : In x l -> x_kind x = XFunction f pv a -> sourced f.
Proof.
  intros I K. destruct (c90_contents _ _ _ PA x I) as [C|[E|(ns & sib & it & W & M)]].
  - destruct C; discriminate.
  - rewrite E in K. discriminate.
  - assert (E : x = XA (x_info x) (XFunction f PvOther None)) by (destruct M; try discriminate K; injection K as <- _ _; reflexivity).
    rewrite E in M. eapply so_declared; eassumption.
Qed.
Lemma in_functions y f pv a : In y l1 -> x_kind y = XFunction f pv a -> sourced f.
Proof.
  intros I K. destruct (FrontProps.function_origin (front_cfg w) l l1 y f pv a ND FR I K) as (la & lb & T & P & N1 & N2 & [(x & q & Hx & ST & E)|[(x & d & pa & b & Hx & KX & Hb & E)|(x & Hx & FT)]]).
  - destruct (FrontProps.struct_back _ _ _ _ _ ND N1 N2 T P Hx) as (x0 & H0 & EI & EC); [destruct ST as [[A _]|[A _]]; auto|].
    assert (SQ : stored q).
    { destruct ST as [((d & b & KK) & ->)|((s & KK) & ->)]; rewrite KK in EC; destruct (x_kind x0) eqn:K0; try discriminate EC.
      - destruct (struct_declared _ _ _ H0 K0) as (g & fs & rv & _ & D). left. exists g, fs. unfold xname in *. rewrite EI. exact D.
      - right. pose proof (subclass_asked _ _ H0 K0) as D. unfold xname in *. rewrite EI. eexists (an_name (x_info x0)), _. split; [exact D|].
        destruct D as (s0 & _ & -> & _). reflexivity. }
    destruct E as [-> | ->]; injection K as <- _ _; [eapply so_alloc|eapply so_free]; try reflexivity; exact SQ.
  - destruct (FrontProps.struct_back _ _ _ _ _ ND N1 N2 T P Hx) as (x0 & H0 & EI & EC); [left; eauto|].
    destruct (FrontProps.pod_bases _ _ _ P x (FrontProps.l3_struct _ _ _ _ _ N2 Hx KX) d _ KX) as (pa' & EP & CA & _). injection EP as <-. destruct (CA b Hb) as [DB _].
    rewrite KX in EC. cbn in EC. destruct (x_kind x0) eqn:K0; try discriminate. injection EC as ->.
    destruct (struct_declared _ _ _ H0 K0) as (g & fs & rv & -> & D). subst y. injection K as <- _ _.
    eapply so_cast; [exact D|exact DB|..]; unfold xname; rewrite ?EI; reflexivity.
  - destruct FT as [_ [FT|[FT|(_ & b & FT)]]].
    + rewrite K in FT. cbn in FT. destruct (x_kind x) eqn:KX; try discriminate FT. injection FT as -> ->. eapply function_declared; eassumption.
    + unfold x_ignored in FT. rewrite K in FT. discriminate.
    + rewrite K in FT. discriminate.
Qed.
Lemma held_back x : In x l1 -> (exists d a, x_kind x = XStruct d a) \/ (exists s, x_kind x = XSubclass s) ->
  exists x0, In x0 l /\ x_info x = x_info x0 /\ FrontProps.core (x_kind x) = FrontProps.core (x_kind x0).
Proof.
  intros I K. destruct (FrontProps.front_stages _ l l1 ND FR) as (la & lb & T & P & E & N1 & N2 & N3 & N4). rewrite E in I. unfold create_alloc_and_frees in I.
  apply xextend_in in I as [[]|[I|(z & _ & ->)]]; [|destruct K as [(d & a & K)|(s & K)]; discriminate].
  apply in_flat_map in I as (z & Hz & I). apply in_app_iff in I as [I|[->|[]]].
  - destruct (FrontProps.allocs_stores _ _ I) as (q & _ & [-> | ->]); destruct K as [(d & a & K)|(s & K)]; discriminate.
  - apply (FrontProps.struct_back _ _ _ _ _ ND N1 N2 T P); [|exact K]. eapply FrontProps.l4_struct; [exact Hz|exact K].
Qed.
Lemma kept_subclass x sup : In x l1 -> x_kind x = XSubclass sup -> asked_subclass (xname x) sup.
Proof.
  intros I K. destruct (held_back x I) as (x0 & H0 & EI & EC); [right; eauto|]. rewrite K in EC. destruct (x_kind x0) eqn:KX; try discriminate EC.
  injection EC as ->. unfold xname. rewrite EI. eapply subclass_asked; eassumption.
Qed.
Lemma out_functions x f pv a : In x r -> x_kind x = XFunction f pv a -> sourced f.
Proof.
  intros I K. destruct (account_of (driver_cfg w) l1 r found AN) as (st & H). destruct (c82_result _ _ _ _ _ H) as (_ & PD & _).
  destruct (c83_members_added_once _ _ _ _ _ H) as (_ & P0 & rest & _ & _ & SM). cbv zeta in *.
  set (ms := IC.synthesized _ _ _) in *.
  assert (OR : forall n g, origin (driver_cfg w) l1 ms n g -> sourced g).
  { intros n g O. destruct O as [y g pv0 a0 I0 K0|q m J]; [eapply in_functions; eassumption|]. destruct (SM q m J) as (_ & _ & (s & sd & pa & IS & <- & KS) & _).
    destruct (held_back s IS) as (x0 & H0 & EI & EC); [left; eauto|]. rewrite KS in EC. destruct (x_kind x0) eqn:KX; try discriminate EC.
    destruct (struct_declared _ _ _ H0 KX) as (g & fs & rv & _ & D). eapply so_special; [exact D|..]; unfold xname; rewrite <- ?EI; try reflexivity.
    destruct m; cbn; auto. }
  assert (SU : forall sub sup, subclass_in l1 sub sup -> asked_subclass sub sup).
  { intros sub sup (y & IY & <- & KY). apply kept_subclass; assumption. }
  destruct (PD x I) as [Q|(c & E)]; [|rewrite E in K; discriminate]. clear PD SM I.
  revert f pv a K. induction Q as [y IY NF|n g fa nm O _|n g sup sub n' g' fa nm O V S E1 E2 E3 E4 _|n g sup sub n' sf O V S E|n g sup sub n' m O V S E|n g pv0 fa b sup sub n' g' triv cpp fa' nm Q IH FK S E3 E1 _|n def rs J];
    intros f pv a K; try discriminate K.
  - elim NF. exists f, pv, a. exact K.
  - injection K as <- _ _. eapply OR, O.
  - injection K as <- _ _. eapply so_super; [eapply OR, O|apply SU, S|exact E1|exact E2|exact E3].
  - injection K as <- _ _. eapply so_ctor; [eapply IH; reflexivity|apply SU, S|exact E1|exact E3].
Qed.
End Run.
End Sources.

(** Every function told to cxx has a source: the headers, as bindgen read them, or what was said of the headers' types. *)
Theorem c90_functions : forall w items fl ctors order_ty order_key includes header F,
  (forall p l, Permutation (order_ty p l) l) -> (forall p l, Permutation (order_key p l) l) ->
  converted w items = Some fl -> rs_codegen (rust_options w ctors) order_ty order_key includes header fl = Some F ->
  forall ns c f, In (FFn ns c f) (rs_cpp F) ->
  exists x fn pv fa g, In x fl /\ x_kind x = XFunction fn pv (Some fa) /\ gen_function (find_non_pod_types fl) fa = Some g /\ o_bridge g = Some f /\
    sourced w items fn.
Proof.
  intros w items fl ctors order_ty order_key includes header F Pt Pk CV G ns c f HF.
  destruct (converted_parts _ _ _ CV) as (l & l1 & r & found & PA & FR & AN & FL).
  destruct (c90_well_formed w items l ctors PA) as (ND & P1 & P2 & P3 & PL & _).
  pose proof (final_facts_hold (rust_options w ctors) (driver_cfg w) _ _ _ _ _ PL FR AN FL) as FF. pose proof (the_pieces _ _ _ _ _ _ _ Pt Pk G) as P.
  apply (po_cpp _ _ _ P) in HF as (x & p & I & GX & HF); [|discriminate]. apply gen_shape in GX as SH.
  assert (X : exists fn pv fa gf, x_kind x = XFunction fn pv (Some fa) /\ gen_function (find_non_pod_types fl) fa = Some gf /\ o_bridge gf = Some f).
  { inversion SH; subst p; cbn [rp_cpp] in HF; try contradiction HF; try (destruct HF as [HF|[]]; discriminate HF).
    - destruct ctx; contradiction HF.
    - cbn in HF. repeat (destruct HF as [HF|HF]; [discriminate HF|]). destruct HF.
    - destruct (o_bridge g) as [bf|] eqn:OB; [|contradiction HF]. destruct HF as [HF|[]]. injection HF as _ _ <-. eauto 8. }
  destruct X as (fn & pv & fa & gf & K & GF & OB). destruct (ff_function _ _ _ _ _ FF x _ _ _ I K) as [IR _].
  exists x, fn, pv, fa, gf. repeat (split; [assumption|]). exact (out_functions w items l l1 r found PA FR AN x fn pv _ IR K).
Qed.
Print Assumptions c90_functions.

(** What C88 says of the paths in the generated code holds of the code generated from any items. *)
Theorem c90_paths : forall w items fl ctors order_ty order_key includes header F,
  (forall p l, Permutation (order_ty p l) l) -> (forall p l, Permutation (order_key p l) l) ->
  converted w items = Some fl -> rs_codegen (rust_options w ctors) order_ty order_key includes header fl = Some F ->
  forall m o' i path, out_at (rs_out F) m o' -> In i (items_of o') -> follows i path ->
  (exists n f, path = up m ++ ["cxxbridge"; n] /\ In f (rs_cpp F) /\ bridge_declares f n) \/
  exists n x, path = up m ++ ["bindgen"; "root"] ++ m ++ [n] /\ In x fl /\ xname x = QN m n /\ made_by_bindgen x.
Proof.
  intros w items fl ctors order_ty order_key includes header F Pt Pk CV G.
  destruct (converted_parts _ _ _ CV) as (l & l1 & r & found & PA & FR & AN & FL).
  destruct (c90_well_formed w items l ctors PA) as (_ & _ & _ & _ & PL & _).
  exact (c88_paths (driver_cfg w) l l1 r found fl _ _ _ _ _ F Pt Pk PL FR AN FL G).
Qed.
Print Assumptions c90_paths.

(** What C89 says of the types in signatures holds of the code generated from any items none of which has the name of a known type.
    What is missing is what C89 misses. *)
Theorem c90_types_partial : forall w items fl ctors order_ty order_key includes header F,
  (forall p l, Permutation (order_ty p l) l) -> (forall p l, Permutation (order_key p l) l) -> source_own w items ->
  converted w items = Some fl -> rs_codegen (rust_options w ctors) order_ty order_key includes header fl = Some F ->
  exists l l1 r, x_parse w items = PB.ODone l /\ front (front_cfg w) l = OOk l1 /\
  forall ns c f t lead id, In (FFn ns c f) (rs_cpp F) -> sig_types f t -> path_in lead id t -> id <> "root" -> id <> "output" ->
  told F id \/ exists q, qn_item q = id /\
    ((known_name q /\ is_ctype q = false) \/
     (exists x, In x fl /\ xname x = q /\ untold x) \/
     subclass_lost fl (map (erase (driver_cfg w)) r) q \/
     (exists m, broken (driver_cfg w) l1 r m /\ (m = q \/ exists p, kt_get p = kt_get q /\ stands_for l1 m p)) \/
     (is_ctype q = true /\ exists p, kt_get p = kt_get q /\
        ((qn_item p <> id /\ told F (qn_item p)) \/ exists x, In x fl /\ xname x = QN [] (qn_item p) /\ untold x))).
Proof.
  intros w items fl ctors order_ty order_key includes header F Pt Pk SO CV G.
  destruct (converted_parts _ _ _ CV) as (l & l1 & r & found & PA & FR & AN & FL).
  destruct (c90_well_formed w items l ctors PA) as (ND & PR & US & _ & PL & OW). exists l, l1, r. split; [exact PA|]. split; [exact FR|].
  exact (c89_types_partial (driver_cfg w) l l1 r found fl _ _ _ _ _ F Pt Pk PL ND PR US (OW SO) FR AN FL G).
Qed.
Print Assumptions c90_types_partial.

(** * Cases *)
Definition demo17_world (cfg : CF.config) (es : list event) : world :=
  World (fun _ => false) (fun _ => true) (fun _ => false) (run_events (EvMod 0 "root" None :: es)) cfg (fun _ => "0x1") (fun _ => XOk []) false (fun _ => "t") 50.
Definition demo17_rs (w : world) (items : list pitem) : option rs_file :=
  match converted w items with
  | Some fl => rs_codegen (rust_options w (fun _ => (true, true))) (fun _ l => l) (fun _ l => l) ["a.h"] (Some "g.h") fl
  | None => None
  end.
Definition an_int : ty := TPath ["std"; "os"; "raw"] "c_int" [].

(** [class Pin { int x; }] and a function which takes a pointer to it. *)
Definition demo17 : list pitem :=
  [PMod "root" [PStruct "Pin" [] [BF (Some "x") true an_int];
                PForeignMod [PFFn "f_bindgen_original" [("p", TPtr true (TPath ["root"] "Pin" []))] false None]]].
Definition demo17_w : world := demo17_world (CF.set_allowlist CF.AAll CF.default_config) [].
Definition demo17_l : list xapi := Eval vm_compute in match x_parse demo17_w demo17 with PB.ODone l => l | _ => [] end.
Definition demo17_fl : list xapi := Eval vm_compute in match converted demo17_w demo17 with Some l => l | _ => [] end.
Definition demo17_f : rs_file := Eval vm_compute in match demo17_rs demo17_w demo17 with Some F => F | None => RsF [] [] [] [] [] end.

(** A class of the name of a type known to autocxx, such as [Pin] or [String], is dropped without an error, but the functions which take it are
    not: they are told to cxx with a type of which cxx is told nothing. *)
Theorem c90_known_name_refuted : exists w items fl F f q g fs,
  converted w items = Some fl /\ rs_codegen (rust_options w (fun _ => (true, true))) (fun _ l => l) (fun _ l => l) ["a.h"] (Some "g.h") fl = Some F /\
  (exists l, x_parse w items = PB.ODone l /\ forall x, In x l -> xname x <> q /\ x_ignored x = false) /\
  declared_struct items q g fs /\ qn_ns q = [] /\
  In (FFn [] None f) (rs_cpp F) /\ sig_types f (TPtr true (TPath [] (qn_item q) [])) /\ ~ told F (qn_item q) /\
  (forall x, In x fl -> xname x <> q /\ x_ignored x = false).
Proof.
  exists demo17_w, demo17, demo17_fl, demo17_f, (RF true "f" (Sig false [WP false "p" (RTy (TPtr true (TPath [] "Pin" [])))] None) []), (QN [] "Pin"), [], [BF (Some "x") true an_int].
  split; [vm_compute; reflexivity|]. split; [vm_compute; reflexivity|].
  split. { exists demo17_l. split; [vm_compute; reflexivity|]. intros x H. cbn in H. repeat (destruct H as [<-|H]; [split; [discriminate|reflexivity]|]). destruct H. }
  split. { eexists [], _, "Pin". split; [|reflexivity]. apply w_here. left. reflexivity. }
  split; [reflexivity|]. split. { apply (nth_error_In _ 1). vm_compute. reflexivity. }
  split; [left; left; reflexivity|]. split.
  { intros [(ns & c & t & H)|[H|H]]; vm_compute in H; repeat (destruct H as [H|H]; [discriminate H|]); destruct H. }
  intros x H. cbn in H. repeat (destruct H as [<-|H]; [split; [discriminate|reflexivity]|]). destruct H.
Qed.
Print Assumptions c90_known_name_refuted.

(** The items one after the other, to go through them. *)
Fixpoint spread (ns : list string) (it : pitem) : list (list string * pitem) :=
  (ns, it) :: match it with PMod id l => flat_map (spread (ns ++ [id])) l | _ => [] end.
Lemma within_spread ns l ns' sib it : within ns l ns' sib it -> In (ns', it) (flat_map (spread ns) l).
Proof.
  induction 1 as [ns l it I|ns l id sub ns' sib it I _ IH]; apply in_flat_map.
  - exists it. split; [exact I|]. destruct it; left; reflexivity.
  - exists (PMod id sub). split; [exact I|]. right. exact IH.
Qed.
(** In the namespace [n], [class Base { int x; virtual void go(int); }], [class Derived : public Base], [typedef Base Alias],
    [enum Kind], a function which takes a [Kind] and gives a pointer to an [Alias], and a subclass of [n::Base]. *)
Definition demo18 : list pitem :=
  [PMod "root"
    [PMod "n"
      [PStruct "Base" [] [BF (Some "x") true an_int];
       PStruct "Derived" [] [BF (Some "_base") true (TPath ["root"; "n"] "Base" [])];
       PType "Alias" 0 (TPath ["root"; "n"] "Base" []);
       PEnum "Kind";
       PForeignMod [PFFn "find_bindgen_original" [("k", TPath ["root"; "n"] "Kind" [])] false (Some (TPtr true (TPath ["root"; "n"] "Alias" [])))];
       PForeignMod [PFFn "Base_go_bindgen_original" [("this", TPtr true (TPath ["root"; "n"] "Base" [])); ("i", an_int)] false None];
       PImpl (Some "Base") [("go", Some "Base_go_bindgen_original")]]]].
Definition demo18_w : world :=
  demo17_world (CF.set_subclasses (fun _ => [CF.SubC "n::Base" "MyBase"]) (CF.set_allowlist CF.AAll CF.default_config))
    [EvMod 1 "n" (Some 0); EvItem 2 "Base"; EvCppName 2 None (Some 1); EvItem 3 "Base_go"; EvCppName 3 (Some "go") (Some 1); EvVirtual 3 CbVirtual].
Definition demo18_fl : list xapi := Eval vm_compute in match converted demo18_w demo18 with Some l => l | _ => [] end.
Definition demo18_f : rs_file := Eval vm_compute in match demo17_rs demo18_w demo18 with Some F => F | None => RsF [] [] [] [] [] end.
Example c90_case : source_own demo18_w demo18 /\ converted demo18_w demo18 = Some demo18_fl /\
  rs_codegen (rust_options demo18_w (fun _ => (true, true))) (fun _ l => l) (fun _ l => l) ["a.h"] (Some "g.h") demo18_fl = Some demo18_f /\
  In (FFn ["n"] None (RF true "find" (Sig false [WP false "k" (RTy (TPath [] "Kind" []))] (Some (RTy (TPtr true (TPath [] "Base" []))))) [])) (rs_cpp demo18_f) /\
  told demo18_f "Kind" /\ told demo18_f "Base" /\
  (exists sib it n f, within [] (items_of_root demo18) ["n"] sib it /\ made demo18_w ["n"] sib it (XA n (XFunction f PvOther None)) /\
     f_ident f = "Base_go" /\ f_self_ty f = Some (QN ["n"] "Base") /\ f_virtual f = Some VtVirtual).
Proof.
  split. { split.
    - intros ns sib it W. apply within_spread in W. vm_compute in W. repeat (destruct W as [W|W]; [injection W as <- <-; first [exact I | intros (td & K)%known_name_get; vm_compute in K; discriminate K]|]). destruct W.
    - intros x C T. destruct C as [U|s J|f ds J E|p J|def id J|cpp e pod J q E]; try discriminate T; cbn in J; try contradiction J.
      destruct J as [<-|[]]. intros (td & K)%known_name_get. vm_compute in K. discriminate. }
  split; [vm_compute; reflexivity|]. split; [vm_compute; reflexivity|]. split; [vm_compute; in_run|].
  split. { left. eexists _, _, _. vm_compute. in_run. } split. { left. eexists _, _, _. vm_compute. in_run. }
  assert (W : exists sib, within [] (items_of_root demo18) ["n"] sib (PForeignMod [PFFn "Base_go_bindgen_original" [("this", TPtr true (TPath ["root"; "n"] "Base" [])); ("i", an_int)] false None])
    /\ receiver ["n"] sib "Base_go" (Some (QN ["n"] "Base"))).
  { eexists. split; [eapply w_sub; [left; reflexivity|]; apply w_here; do 5 right; left; reflexivity|].
    eexists _, "Base". split; [do 6 right; left; reflexivity|]. split; [|reflexivity]. eexists _, _. split; [reflexivity|]. split; [left; reflexivity|]. reflexivity. }
  destruct W as (sib & W & R). exists sib. eexists _, _, _. split; [exact W|].
  split. { apply (m_fn demo18_w ["n"] sib _ "Base_go_bindgen_original" [("this", TPtr true (TPath ["root"; "n"] "Base" [])); ("i", an_int)] false None
      (Some (QN ["n"] "Base")) (Some "go") (Some CbVirtual) CbPublic None None); [left; reflexivity|exact R|vm_compute; reflexivity..]. }
  repeat split.
Qed.
