(** C91: everything kept is in the generated Rust code. *)
From Coq Require Import Relations Permutation.
From Verif Require Import Base QNamesModel KnownTypesModel ApiModel ApiSpec ApiVecModel ApiVecProofs NameCheckModel
  TypesModel TypesSpec CppTypesModel ConcreteNamesModel TypeConverterModel ByValueModel ConversionModel SynthNamesModel
  FnAnalysisModel FnAnalysisProofs SubclassGenModel UnqualifyModel FrontModel FrontProofs FnDriverModel FnDriverProofs FnDriverProps FnCodegenModel
  CppGenModel CalledModel RsGenModel PipelineModel PipelineProofs PipelineProps GcModel GcProofs KeptProps ListedProps SubclassGenProps CalledProps RsGenProps.
From Verif Require FrontProps CppGenProps FnCodegenProps TrackersModel.
From Verif Require NsModel NsProps.

Section Whole.
Variables (o : rs_options) (order_ty : list string -> list (string * list entry) -> list (string * list entry))
  (order_key : list string -> list ((string * qname) * list entry) -> list ((string * qname) * list entry))
  (includes : list string) (header : option string) (l : list xapi) (F : rs_file).
Hypothesis Pt : forall p l, Permutation (order_ty p l) l.
Hypothesis Pk : forall p l, Permutation (order_key p l) l.
Hypothesis G : rs_codegen o order_ty order_key includes header l = Some F.
Notation gen := (generate_rs_for_api o l).

Lemma block_entries {K} (eqb : K -> K -> bool) (S : forall a b, eqb a b = true <-> a = b) (bs : list (K * list entry)) ps k e :
  NsProps.blocks eqb bs ps -> In (k, e) ps -> exists es, In (k, es) bs /\ In e es.
Proof.
  intros [_ B] I. assert (J : In (k, e) (filter (fun p => eqb (fst p) k) ps)) by (apply filter_In; split; [exact I|apply S; reflexivity]).
  exists (map snd (filter (fun p => eqb (fst p) k) ps)). split; [|apply (in_map snd) in J; exact J]. apply B. split; [reflexivity|].
  intros Z. apply map_eq_nil in Z. rewrite Z in J. destruct J.
Qed.
(** The entries of the blocks of a module. *)
Lemma the_entries x p o' : In x l -> gen x = Some p -> out_at (rs_out F) (qn_ns (xname x)) o' ->
  (forall t e, rp_impl p = Some (t, e) -> exists es, In (t, es) (impls_of o') /\ In e es) /\
  (forall k e, rp_trait p = Some (k, e) -> exists es, In (k, es) (traits_of o') /\ In e es).
Proof.
  unfold rs_codegen in G. destruct (all_some _) as [ps|] eqn:A; [|discriminate G]. apply all_some_ok in A.
  destruct (bridge_includes _ _ _) as [incs| |]; try discriminate G.
  destruct (NsModel.generate_final_output_namespace _ _ _ _ _) as [out|] eqn:N; [|discriminate G]. injection G as EF.
  destruct (NsProps.c41_output_module _ _ _ _ String.eqb key_eqb order_ty order_key
    (combine (map xname l) (map (fun p => NsModel.RsResult (rp_out p) (rp_impl p) (rp_trait p)) ps)) String.eqb_eq key_eqb_eq Pt Pk) as (out' & N' & M).
  rewrite N in N'. injection N' as <-. rewrite <- EF. cbn [rs_out]. intros I E O. destruct (M _ _ O) as (_ & B1 & B2 & _).
  assert (H : In (NsModel.RsResult (rp_out p) (rp_impl p) (rp_trait p))
    (map snd (NsProps.of_namespace (fun e : qname * NsModel.rs_result item entry string (string * qname) => qn_ns (fst e)) (qn_ns (xname x))
      (combine (map xname l) (map (fun p => NsModel.RsResult (rp_out p) (rp_impl p) (rp_trait p)) ps))))).
  { apply in_map_iff. exists (xname x, NsModel.RsResult (rp_out p) (rp_impl p) (rp_trait p)). split; [reflexivity|].
    unfold NsProps.of_namespace. apply filter_In. split; [apply (combined _ _ _ _ A); eauto|]. cbn. destruct (NsProps.path_dec _ _); [reflexivity|contradiction]. }
  split; intros k e Q.
  - apply (block_entries _ String.eqb_eq _ _ k e B1). apply in_flat_map. eexists. split; [exact H|]. cbn. rewrite Q. left. reflexivity.
  - apply (block_entries _ key_eqb_eq _ _ k e B2). apply in_flat_map. eexists. split; [exact H|]. cbn. rewrite Q. left. reflexivity.
Qed.
End Whole.

(** ** Functions, as analysis leaves them *)
(** A C++ wrapper is never called what the function is called in Rust. *)
Lemma append_length (a b : string) : String.length (a +++ b) = String.length a + String.length b.
Proof. induction a as [|c a IH]; cbn; [reflexivity|]. rewrite <- IH. reflexivity. Qed.
Lemma join_long sep l x : String.length x <= String.length (join sep (l ++ [x])).
Proof.
  induction l as [|y l IH]; [cbn; lia|]. change ((y :: l) ++ [x]) with (y :: (l ++ [x])). cbn [join]. destruct (l ++ [x]) as [|z r] eqn:E.
  - destruct l; discriminate.
  - rewrite !append_length. lia.
Qed.
Lemma bridge_long cs r : String.length (TrackersModel.br_name r) <= String.length (snd (TrackersModel.bridge_step cs r)).
Proof.
  assert (B : String.length (TrackersModel.br_name r) <= String.length (TrackersModel.bridge_found r)).
  { unfold TrackersModel.bridge_found. destruct (String.eqb_spec (TrackersModel.br_name r) "new") as [->|]; cbn; lia. }
  assert (P : String.length (TrackersModel.bridge_found r) <= String.length (TrackersModel.bridge_prefix r)).
  { unfold TrackersModel.bridge_prefix. rewrite app_assoc. apply join_long. }
  unfold TrackersModel.bridge_step. destruct (Nat.eqb _ 0); cbn [snd]; [exact B|]. destruct (Nat.eqb _ 0); [lia|]. rewrite !append_length. lia.
Qed.
Lemma wrapper_long h b : String.length b < String.length (TrackersModel.wrapper_name h b).
Proof. unfold TrackersModel.wrapper_name, TrackersModel.uniquify_name_per_mod. rewrite !append_length. cbn. lia. Qed.

(** An ordinary method has a receiver. *)
Lemma method_receiver env fn ns pre ideal st_ self_ty rc second s s' q ctx rust :
  fn_kind_and_name env fn ns pre ideal st_ self_ty rc second s = (s', OOk (FMethod MNormal q, ctx, rust)) -> rc <> None.
Proof.
  unfold fn_kind_and_name. intros H. apply bind_ok in H as (s1 & tr & E & H).
  assert (NT : forall d, tr = Some d -> exists k q', fst (fst d) = FTraitMethod k q').
  { intros d ->. unfold trait_creation_details in E. destruct (f_trait fn) as [[to|q0|q0]|]; [| | |apply ret_ok in E as [_ E]; discriminate E];
      apply bind_ok in E as (s2 & n & _ & E); [apply bind_ok in E as (s3 & from & _ & E)| |]; apply ret_ok in E as [_ E]; injection E as ->; cbn; eauto. }
  destruct tr as [d|]. { apply ret_ok in H as [_ H]. destruct (NT _ eq_refl) as (k & q' & K). rewrite <- H in K. discriminate K. }
  destruct self_ty as [q1|]; [|apply bind_ok in H as (s2 & n & _ & H); apply ret_ok in H as [_ H]; discriminate H].
  assert (GEN : forall sm, (do (mk, n0) <-
                match constructor_with_suffix ideal (last_name env q1) with
                | Some s => ret (MConstructor (match sm with Some SmDefault => true | _ => false end), "new" +++ s)
                | None =>
                    if st_ then ret (MStatic, ideal)
                    else do r <- of_option rc;
                         ret (match f_virtual fn with
                              | None => MNormal
                              | Some VtVirtual => MVirtual r
                              | Some VtPure => MPureVirtual r
                              end, ideal)
                end;
              do n <- match pre with Some p => ret p | None => get_overload_name ns (Some (qn_item q1)) n0 end;
              ret (FMethod mk q1, error_context_for_method env q1 n, n)) s1 = (s', OOk (FMethod MNormal q, ctx, rust)) -> rc <> None).
  { clear H. intros sm H. apply bind_ok in H as (s2 & [mk n0] & M & H). apply bind_ok in H as (s3 & n & _ & H). apply ret_ok in H as [_ H]. injection H as <- _ _ _.
    destruct (constructor_with_suffix _ _); [apply ret_ok in M as [_ M]; discriminate M|]. destruct st_; [apply ret_ok in M as [_ M]; discriminate M|].
    apply bind_ok in M as (s4 & r & R & M). apply of_option_ok in R as [R _]. congruence. }
  fold (last_name env q1) in H.
  destruct (f_special fn) as [[]|]; try exact (GEN None H); try exact (GEN (Some SmDefault) H); apply bind_ok in H as (s2 & n & _ & H); apply ret_ok in H as [_ H]; try discriminate H.
  destruct second; discriminate H.
Qed.

(** Where users find a function for which no Rust wrapper is made. *)
Lemma unwrapped env name fn soph pre st st' fa nm : analyze_foreign_fn env name fn soph pre st = (st', OOk (fa, nm)) -> fa_rust_wrapper fa = false ->
  match fa_kind fa with
  | FFunction => (fa_rename fa = RnNone /\ fa_bridge fa = fa_rust fa) \/ fa_rename fa = RnInOutputMod (fa_rust fa)
  | FMethod _ _ => fa_bridge fa = fa_rust fa /\ exists t, In ("self", t) (fa_params fa)
  | FTraitMethod _ _ => False
  end.
Proof.
  unfold analyze_foreign_fn. intros H RW.
  apply bind_ok in H as (s1 & u1 & _ & H).
  apply bind_ok in H as (s2 & [ps0 bads] & HP & H).
  apply bind_ok in H as (s3 & ideal & HI & H).
  apply bind_ok in H as (s4 & [[kind ctx] rust] & HK & H).
  apply bind_ok in H as (s5 & [ig0 ps1] & HR & H).
  apply bind_ok in H as (s6 & bridge0 & HB & H).
  apply bind_ok in H as (s7 & rr & HT & H).
  destruct (match rr with Ok r => (check_unsupported env fn kind bads ig0, r) | Err e => (Some e, ret_default) end) as [ig2 r] eqn:RR.
  apply bind_ok in H as (s8 & keyword & HW & H).
  assert (LEN : String.length rust <= String.length bridge0).
  { unfold get_cxx_bridge_name in HB. set (rq := TrackersModel.BReq _ rust _) in HB. pose proof (bridge_long (fs_bridge s5) rq) as B.
    destruct (TrackersModel.bridge_step _ rq) as [cs n]. injection HB as _ <-. exact B. }
  destruct (cpp_wrapper_needed _ _ _ _ _ _ _ _) eqn:NEED;
    [destruct (wrapper_payload fn (qn_ns (an_name name)) kind match an_cpp name with Some c => c | None => rust end) as [payload ck]|];
    apply bind_ok in H as (s9 & v & HV & H); apply ret_ok in H as [-> H]; injection H as -> ->;
    cbn [fa_rust_wrapper fa_rename fa_bridge fa_rust fa_kind fa_params] in *.
  - rewrite RW. destruct kind as [|mk q|tk q].
    + destruct (String.eqb_spec (TrackersModel.wrapper_name (fe_hash env) bridge0) rust) as [->|]; auto.
    + exfalso. unfold rust_wrapper_needed in RW. apply orb_false_iff in RW as [_ RW]. apply negb_false_iff, String.eqb_eq in RW.
      pose proof (wrapper_long (fe_hash env) bridge0). rewrite RW in *. lia.
    + unfold rust_wrapper_needed in RW. apply orb_false_iff in RW as [_ RW]. discriminate RW.
  - rewrite RW. destruct kind as [|mk q|tk q].
    + destruct (String.eqb_spec bridge0 rust) as [->|]; auto.
    + unfold rust_wrapper_needed in RW. apply orb_false_iff in RW as [_ RW]. apply negb_false_iff, String.eqb_eq in RW. split; [exact RW|].
      destruct mk; try discriminate NEED. apply fix_other in HR. subst ps1.
      apply method_receiver in HK. destruct (hd_error _) as [[q' m']|] eqn:HD; [|contradiction].
      assert (HI' : In (q', m') (flat_map (fun p => match a_self (snd p) with Some x => [x] | None => [] end) ps0)) by (destruct (flat_map _ ps0); [discriminate|injection HD as ->; left; reflexivity]).
      apply in_flat_map in HI' as (p & Ip & Sp). destruct (a_self (snd p)) as [sf|] eqn:SF; [|destruct Sp].
      apply convert_params_ok in HP as (HP & _). destruct (HP p Ip) as (n & t & t1 & t2 & In_ & C). apply convert_fn_arg_ok in C as (an & t' & AS).
      assert (n = "this") as -> by (apply (as_self _ _ _ _ _ _ _ _ _ _ _ _ AS); congruence).
      pose proof (as_self_name _ _ _ _ _ _ _ _ _ _ _ _ AS eq_refl) as AN. rewrite <- (as_name _ _ _ _ _ _ _ _ _ _ _ _ AS) in AN. cbn in AN.
      exists (snd (fst p)). rewrite <- AN. apply in_map_iff. exists p. split; [destruct p as [[]]; reflexivity|apply in_app_iff; left; exact Ip].
    + unfold rust_wrapper_needed in RW. apply orb_false_iff in RW as [_ RW]. discriminate RW.
Qed.

(** No function among the results has a problem recorded. *)
Lemma no_problem d l l1 r found fl : front (dc_front d) l = OOk l1 -> analyze_functions_x d l1 = OOk (r, found) -> final_apis d l = Some fl ->
  forall x f pv fa, In x fl -> x_kind x = XFunction f pv (Some fa) -> fa_ignore fa = None.
Proof.
  intros FR AN F x f pv fa Hx KX. assert (A : analyzed d l = OOk (r, found)) by (unfold analyzed; rewrite FR; exact AN).
  unfold final_apis in F. rewrite A in F. destruct (FnDriverModel.kept d l) as [v|] eqn:K; [|discriminate]. injection F as <-.
  unfold FnDriverModel.kept in K. rewrite A in K. pose proof (v_nodup d l1 r found AN) as NV. pose proof (r_nodup d l1 r found AN) as NR.
  unfold pipeline in K. destruct (to_gc _ _ _ _ _ _ _) as [g|] eqn:GC; [|discriminate]. injection K as <-.
  assert (W : av_wf g). { destruct (stages _ _ _ _ _ _ _ g NV GC) as (abs & l2 & l4 & l5 & _ & _ & N5 & E). eapply gc_spec; eauto. }
  apply in_map_iff in Hx as (b & <- & H). unfold restore in KX. cbn [x_kind x_info] in KX.
  destruct (is_ignored b) eqn:IG; [unfold is_ignored in IG; destruct (api_kind_of b); discriminate|].
  assert (NI : ~ ignored b) by (apply not_ignored_is; exact IG).
  apply ctypes_in in H as [H|(q & E)]; [|rewrite E in KX; discriminate|exact W|exact NI].
  destruct (unchanged _ _ _ _ _ _ _ g b NV GC H NI) as (a & IA & EI & SAME & ST). rewrite (v_apis d l1 r found AN) in IA. apply in_map_iff in IA as (y & EY & Iy).
  assert (FD : find (fun x => qn_eqb (xname x) (aname b)) r = Some y).
  { assert (EN : xname y = aname b) by (unfold xname, aname; rewrite <- EI, <- EY; reflexivity). clear - NR Iy EN.
    induction r as [|z r IH]; [destruct Iy|]. cbn. inversion NR as [|? ? N NR']; subst. destruct Iy as [->|Iy].
    - rewrite EN, qn_eqb_refl. reflexivity.
    - destruct (qn_eqb (xname z) (aname b)) eqn:E; [|apply IH; assumption]. apply qn_eqb_eq in E. exfalso. apply N. rewrite E, <- EN. apply in_map, Iy. }
  rewrite FD in KX. cbn [option_map] in KX.
  assert (KY : x_kind y = XFunction f pv (Some fa)).
  { destruct (api_kind_of b); destruct (x_kind y) as [| | | |? ? []| | | |? []| | | | | | | |]; try discriminate KX; exact KX. }
  destruct SAME as [SB FI]. { rewrite <- EY. unfold erase. cbn [api_kind_of]. rewrite KY. discriminate. }
  rewrite <- EY in FI. unfold erase in FI. cbn [api_kind_of] in FI. rewrite KY in FI. specialize (FI _ eq_refl). cbn in FI.
  destruct (fa_ignore fa) as [[e c]|]; [discriminate FI|reflexivity].
Qed.

(** ** Everything kept is there *)
(** The function which a user calls for [fa]: one named as analysis decided, in the module or in a block for its class; or in the
    bridge, where a method has a receiver. *)
Definition called_by_users (F : rs_file) (m : list string) (o' : list (NsModel.out item RsGenModel.entry string (string * qname))) (fa : fn_analysis) : Prop :=
  match fa_kind fa with
  | FFunction => (exists g, In (IFn g) (items_of o') /\ rf_name g = fa_rust fa) \/
      exists i, In i (items_of o') /\ introduces i (fa_rust fa) /\ follows i (up m ++ ["cxxbridge"; fa_bridge fa])
  | FMethod _ q => (exists es g, In (qn_item q, es) (impls_of o') /\ In (EFn g) es /\ rf_name g = fa_rust fa) \/
      exists ns c g p, In (FFn ns c g) (rs_cpp F) /\ rf_name g = fa_rust fa /\ In p (sg_params (rf_sig g)) /\ wp_name p = "self"
  | FTraitMethod k q => exists t es g, In ((t, q), es) (traits_of o') /\ In (EFn g) es
  end.
(** A type of the bridge, which is defined by what bindgen made or is left to cxx; and a name shown to users. *)
Definition in_bridge (F : rs_file) (n : string) (target : option (list string)) : Prop := exists ns c, In (FType ns c n target) (rs_cpp F).
Definition shown (o' : list (NsModel.out item RsGenModel.entry string (string * qname))) (n : string) : Prop := exists i, In i (items_of o') /\ introduces i n.
(** What there is for each item. A template which is abstract has nothing. *)
Definition present (o : rs_options) (F : rs_file) (o' : list (NsModel.out item RsGenModel.entry string (string * qname))) (x : xapi) : Prop :=
  let n := qn_item (xname x) in
  match x_kind x with
  | XStruct _ (Some pa) =>
      match pa_kind pa, pa_generics pa with
      | Abstract, 0 => shown o' n /\ in_bridge F n None
      | Abstract, S _ => True
      | _, 0 => shown o' n /\ in_bridge F n (Some (qn_ns (xname x))) /\ exists id t, In (IExternType n id t) (items_of o') /\ (t = true <-> pa_kind pa = Pod)
      | _, S _ => shown o' n
      end
  | XEnum => shown o' n /\ in_bridge F n (Some (qn_ns (xname x))) /\ exists id, In (IExternType n id true) (items_of o')
  | XConcrete _ _ | XForward _ | XOpaqueTypedef _ => shown o' n /\ in_bridge F n None
  | XTypedef _ _ _ | XConst => shown o' n
  | XExternCppType _ _ => shown o' n /\ in_bridge F n (Some (qn_ns (xname x)))
  | XCType _ => In (FCType n) (rs_cpp F)
  | XRustType => In (RType n) (rs_rust F)
  | XRustFn _ => In (RUser (xname x)) (rs_rust F)
  | XRustSubclassFn _ d => In (RFn n (map (fun p => unqualify_type (snd p)) (sf_params d) ++ match sf_ret d with Some t => [unqualify_type t] | None => [] end)) (rs_rust F)
  | XSubclass _ => shown o' (n +++ "Cpp") /\ shown o' (n +++ "Holder") /\ in_bridge F (n +++ "Cpp") None /\ In (RType (n +++ "Holder")) (rs_rust F)
  | XStringConstructor => shown o' "make_string" /\ In (FMakeString (ro_make_string o)) (rs_cpp F)
  | XIgnored _ (Some (CtxItem id | CtxSanitizedItem id)) => In (IError id) (items_of o')
  | XIgnored _ (Some (CtxMethod t n)) => exists es, In (t, es) (impls_of o') /\ In (EError n) es
  | XFunction _ _ (Some fa) => fa_external fa = true -> (exists ns c g, In (FFn ns c g) (rs_cpp F) /\ rf_name g = fa_bridge fa) /\ called_by_users F (qn_ns (xname x)) o' fa
  | XFunction _ _ None | XStruct _ None => False
  | XIgnored _ None | XSubclassTraitItem _ => True
  end.

Lemma in_bridge_of F l q b : In (generate_cxxbridge_type l q b) (rs_cpp F) -> in_bridge F (qn_item q) (if b then Some (qn_ns q) else None).
Proof. intros H. unfold generate_cxxbridge_type in H. eexists _, _. exact H. Qed.

Theorem c91_present_partial : forall d l l1 r found fl o order_ty order_key includes header F,
  (forall p l, Permutation (order_ty p l) l) -> (forall p l, Permutation (order_key p l) l) -> Forall (placed o) l ->
  front (dc_front d) l = OOk l1 -> analyze_functions_x d l1 = OOk (r, found) -> final_apis d l = Some fl ->
  rs_codegen o order_ty order_key includes header fl = Some F ->
  forall x, In x fl -> exists o', out_at (rs_out F) (qn_ns (xname x)) o' /\ present o F o' x.
Proof.
  intros d l l1 r found fl o order_ty order_key includes header F Pt Pk PL FR AN FL G x I.
  pose proof (final_facts_hold o _ _ _ _ _ _ PL FR AN FL) as FF. pose proof (the_pieces _ _ _ _ _ _ _ Pt Pk G) as P.
  pose proof (no_problem _ _ _ _ _ _ FR AN FL) as NP.
  destruct (po_module _ _ _ P x I) as (o' & O). exists o'. split; [exact O|]. destruct (po_total _ _ _ P x I) as (p & GX).
  destruct (the_entries _ _ _ _ _ _ _ Pt Pk G x p o' I GX O) as [TE TT].
  assert (BR : forall f, In f (rp_cpp p) -> (forall h, f <> FInclude h) -> In f (rs_cpp F)) by (intros f Hf NI; apply (po_cpp _ _ _ P); eauto).
  assert (RU : forall f, In f (rp_rust p) -> In f (rs_rust F)) by (intros f Hf; apply (po_rust _ _ _ P); eauto).
  assert (IT : forall i, In i (rp_out p) -> In i (items_of o')) by (intros i Hi; apply (po_items _ _ _ P _ _ O); eauto 8).
  assert (EC : forall q n, ends_in (q ++ ["cxxbridge"; n]) n) by (intros q n; change ["cxxbridge"; n] with (["cxxbridge"] ++ [n]); rewrite app_assoc; constructor).
  assert (TY : forall kind mv ds g, generate_type o fl (xname x) kind mv ds g = Some p ->
     match kind, g with
      | Abstract, 0 => shown o' (qn_item (xname x)) /\ in_bridge F (qn_item (xname x)) None
      | Abstract, S _ => True
      | _, 0 => shown o' (qn_item (xname x)) /\ in_bridge F (qn_item (xname x)) (Some (qn_ns (xname x))) /\
          exists id t, In (IExternType (qn_item (xname x)) id t) (items_of o') /\ (t = true <-> kind = Pod)
      | _, S _ => shown o' (qn_item (xname x))
      end).
  { intros kind mv ds g E. unfold generate_type in E. destruct (superclass_traits _ _) as [traits|]; [|discriminate E].
    destruct g as [|g]; cbn [Nat.ltb Nat.leb] in E; destruct kind; injection E as <-; cbn [rp_out rp_cpp] in *;
      try exact Logic.I; unfold generate_extern_type_impl in *;
      try (split; [|split]); try (split; [|exact (in_bridge_of _ _ _ false (BR _ (or_introl eq_refl) ltac:(discriminate)))]);
      try (exact (in_bridge_of _ _ _ true (BR _ (or_introl eq_refl) ltac:(discriminate)))).
    all: try (eexists; split; [apply IT, in_app_iff; right; left; reflexivity|]; cbn [introduces generate_opaque_type generate_bindgen_use_stmt generate_cxx_use_stmt];
      first [reflexivity | apply ends_bindgen | apply EC]).
    all: eexists _, _; (split; [apply IT, in_app_iff; right; right; left; reflexivity|]); split; congruence || auto. }
  unfold present. destruct (x_kind x) eqn:K; unfold generate_rs_for_api in GX; rewrite K in GX.
  all: try (injection GX as <-; cbn [rp_out rp_cpp rp_rust] in * ).
  all: try (exact (TY _ _ _ _ GX)).
  - split; [eexists; split; [apply IT; left; reflexivity|reflexivity] | apply BR; [left; reflexivity|discriminate]].
  - destruct an as [fa|]; [|discriminate GX]. intros EX. unfold gen_function_rs in GX.
    destruct (gen_function _ fa) as [g|] eqn:GF; [|discriminate GX]. injection GX as <-. cbn [rp_out rp_cpp rp_impl rp_trait] in *.
    destruct (ff_function _ _ _ _ _ FF x _ _ _ I K) as [Ir EN]. destruct x as [nm k]. cbn in K. subst k.
    destruct (function_analysed d l1 r found AN _ _ _ _ Ir) as (name & soph & pre & s & s' & Q).
    pose proof (unwrapped _ _ _ _ _ _ _ _ _ Q) as UW. specialize (NP _ _ _ _ I eq_refl).
    unfold gen_function in GF. rewrite NP, EX in GF. cbn [orb negb] in GF.
    destruct (add_explicit_lifetime_if_necessary _ _ _ _ _ _) as [bs|] eqn:AL; [|discriminate GF].
    match type of GF with match ?w with _ => _ end = _ => destruct w as [wr|] eqn:WR; [|discriminate GF] end. injection GF as <-. cbn [o_bridge o_wrapper o_reexport] in *.
    split. { eexists _, _, _. split; [apply BR; [left; reflexivity|discriminate]|reflexivity]. }
    unfold called_by_users. destruct (fa_rust_wrapper fa).
    + assert (W : exists g, wr = Some g /\ rf_name g = fa_rust fa).
      { destruct (fa_kind fa) as [|[]|]; match type of WR with match ?c with _ => _ end = _ => destruct c as [[sg body]|]; [|discriminate WR] end; injection WR as <-; eexists; split; reflexivity. }
      destruct W as (g & -> & RN). destruct (fa_kind fa) as [|mk q|tk q].
      * left. exists g. split; [apply IT; left; reflexivity|exact RN].
      * left. destruct (TE _ _ eq_refl) as (es & E1 & E2). exists es, g. auto.
      * destruct (TT _ _ eq_refl) as (es & E1 & E2). eexists _, es, g. split; [exact E1|exact E2].
    + specialize (UW eq_refl). injection WR as <-. destruct (fa_kind fa) as [|mk q|tk q]; [| |contradiction].
      * right. eexists. split; [apply IT; left; reflexivity|]. unfold generate_cxx_use_stmt. cbn [introduces follows].
        split; [|rewrite EN; reflexivity]. destruct UW as [[-> E]| ->]; [|reflexivity]. rewrite EN, E. apply EC.
      * right. destruct UW as (E & t & HS).
        assert (HN : In "self" (map wp_name (sg_params bs))).
        { rewrite (FnCodegenProps.lifetime_names _ _ _ _ _ _ _ AL), map_map. apply in_map_iff. exists ("self", t). split; [reflexivity|exact HS]. }
        apply in_map_iff in HN as (p & E1 & E2). eexists _, _, _, _. split; [apply BR; [left; reflexivity|discriminate]|].
        split; [exact E|]. cbn [rf_sig sg_params]. split; [apply in_map_iff; exists p; split; [reflexivity|exact E2]|exact E1].
  - eexists. split; [apply IT; left; reflexivity|apply ends_bindgen].
  - eexists. split; [apply IT; left; reflexivity|apply ends_bindgen].
  - destruct (TY _ _ _ _ GX) as (T1 & T2 & id & t & T3 & T4). split; [exact T1|]. split; [exact T2|]. exists id. rewrite <- (proj2 T4 eq_refl). exact T3.
  - destruct an as [pa|]; [|discriminate GX]. exact (TY _ _ _ _ GX).
  - apply BR; [left; reflexivity|discriminate].
  - destruct ctx as [[]|]; [| | |exact Logic.I]; injection GX as <-; cbn [generate_error_entry rp_out rp_impl] in *; try (apply IT; left; reflexivity).
    destruct (TE _ _ eq_refl) as (es & E1 & E2). eauto.
  - apply RU. left. reflexivity.
  - apply RU. left. reflexivity.
  - apply RU. left. reflexivity.
  - unfold generate_subclass_rs in GX. destruct (generate_subclass _ _ _ _) as [impls|]; [|discriminate]. injection GX as <-. cbn [rp_out rp_cpp rp_rust] in *.
    split; [|split; [|split]].
    + eexists. split; [apply IT; left; reflexivity|]. cbn [introduces]. change ["cxxbridge"; ?a] with (["cxxbridge"] ++ [a]). constructor.
    + eexists. split; [apply IT; right; left; reflexivity|]. reflexivity.
    + exact (in_bridge_of _ _ (subclass_cpp (xname x)) false (BR _ (or_introl eq_refl) ltac:(discriminate))).
    + apply RU. left. reflexivity.
  - exact Logic.I.
  - split; [eexists; split; [apply IT; left; reflexivity|reflexivity]|]. exact (in_bridge_of _ _ _ true (BR _ (or_introl eq_refl) ltac:(discriminate))).
Qed.
Print Assumptions c91_present_partial.

(** ** The implementations asked of cxx *)
(** Which smart pointers and containers there are of a type: those which destroy it, and vectors which move it. *)
Definition holds (w : string) (movable destroyable : Prop) : Prop :=
  destroyable /\ (w = "UniquePtr" \/ w = "SharedPtr" \/ w = "WeakPtr") \/ movable /\ w = "CxxVector".
(** Exactly these are asked for: of every class which is no template as the analysis of its constructors says; of an enum all; of
    an instantiation of a template, and of the C++ half of a subclass, those which do not move it; of a type known by name only, none. *)
Definition held (o : rs_options) (x : xapi) (w id : string) : Prop :=
  match x_kind x with
  | XStruct _ (Some pa) => pa_generics pa = 0 /\ id = qn_item (xname x) /\ holds w (fst (ro_ctors o (xname x)) = true) (snd (ro_ctors o (xname x)) = true)
  | XEnum => id = qn_item (xname x) /\ holds w True True
  | XConcrete _ _ => id = qn_item (xname x) /\ holds w False True
  | XSubclass _ => id = qn_item (xname x) +++ "Cpp" /\ holds w False True
  | _ => False
  end.
Lemma impl_items_held o id mv ds w i : In (w, i) (create_impl_items o id mv ds) <-> ro_exclude_impls o = false /\ i = id /\ holds w (mv = true) (ds = true).
Proof.
  unfold create_impl_items, holds. destruct (ro_exclude_impls o); [split; [intros []|intros (H & _); discriminate H]|]. rewrite in_app_iff. split.
  - intros [H|H]; [destruct ds | destruct mv]; cbn in H; repeat (destruct H as [H|H]; [injection H as <- <-; intuition|]); destruct H.
  - intros (_ & -> & [(-> & H)|(-> & ->)]); [left; cbn; destruct H as [->|[->| ->]]; auto|right; left; reflexivity].
Qed.
Theorem c91_implementations : forall o order_ty order_key includes header l F,
  (forall p l, Permutation (order_ty p l) l) -> (forall p l, Permutation (order_key p l) l) ->
  rs_codegen o order_ty order_key includes header l = Some F ->
  forall w id, In (w, id) (rs_impls F) <-> ro_exclude_impls o = false /\ exists x, In x l /\ held o x w id.
Proof.
  intros o order_ty order_key includes header l F Pt Pk G w id. pose proof (the_pieces _ _ _ _ _ _ _ Pt Pk G) as P.
  assert (HE : forall mv mv' ds ds' : Prop, (mv <-> mv') -> (ds <-> ds') -> holds w mv ds <-> holds w mv' ds') by (unfold holds; intuition).
  assert (TY : forall x kind mv ds g p, generate_type o l (xname x) kind mv ds g = Some p ->
    In (w, id) (rp_impls p) <-> ro_exclude_impls o = false /\ g = 0 /\ id = qn_item (xname x) /\ holds w (mv = true) (ds = true)).
  { intros x kind mv ds g p E. unfold generate_type in E. destruct (superclass_traits _ _) as [traits|]; [|discriminate E].
    destruct g as [|g]; cbn [Nat.ltb Nat.leb] in E; destruct kind; injection E as <-; cbn [rp_impls no_part];
      try (split; [intros []|intros (_ & E & _); discriminate E]); rewrite impl_items_held; intuition. }
  assert (ONE : forall x p, generate_rs_for_api o l x = Some p -> In (w, id) (rp_impls p) <-> ro_exclude_impls o = false /\ held o x w id).
  { intros x p GX. unfold generate_rs_for_api in GX. unfold held. destruct (x_kind x) eqn:K;
      try (injection GX as <-; cbn [rp_impls]; split; [intros []|intros (_ & [])]).
    - rewrite (TY _ _ _ _ _ _ GX). unfold holds. intuition discriminate.
    - rewrite (TY _ _ _ _ _ _ GX). unfold holds. intuition discriminate.
    - rewrite (TY _ _ _ _ _ _ GX). rewrite (HE _ False _ True) by intuition discriminate. intuition.
    - destruct an as [fa|]; [|discriminate GX]. unfold gen_function_rs in GX. destruct (gen_function _ _); [|discriminate GX]. injection GX as <-. cbn [rp_impls]. split; [intros []|intros (_ & [])].
    - rewrite (TY _ _ _ _ _ _ GX). rewrite (HE _ True _ True) by intuition. intuition.
    - destruct an as [pa|]; [|discriminate GX]. rewrite (TY _ _ _ _ _ _ GX). intuition.
    - destruct ctx as [[]|]; injection GX as <-; cbn [rp_impls generate_error_entry no_part]; (split; [intros []|intros (_ & [])]).
    - unfold generate_subclass_rs in GX. destruct (generate_subclass _ _ _ _); [|discriminate GX]. injection GX as <-. cbn [rp_impls].
      rewrite impl_items_held. rewrite (HE _ False _ True) by intuition discriminate. reflexivity. }
  rewrite (po_impls _ _ _ P). split.
  - intros (x & p & I & GX & H). apply (ONE _ _ GX) in H as [H1 H2]. eauto.
  - intros (H1 & x & I & H2). destruct (po_total _ _ _ P x I) as (p & GX). exists x, p. repeat (split; [assumption|]). apply (ONE _ _ GX). auto.
Qed.
Print Assumptions c91_implementations.

(** ** Making the C++ half of a subclass without help *)
(** The peer of a subclass is made by default, with no say of the user, exactly if every function is safe, and its constructors are one
    or more without parameters and none with. *)
Theorem c91_default_peer : forall o order_ty order_key includes header l F,
  (forall p l, Permutation (order_ty p l) l) -> (forall p l, Permutation (order_key p l) l) ->
  rs_codegen o order_ty order_key includes header l = Some F ->
  forall m o' s c, out_at (rs_out F) m o' ->
  In (ISub (OPeerConstructor s c)) (items_of o') <->
  exists x sup, In x l /\ x_kind x = XSubclass sup /\ xname x = QN m s /\ c = s +++ "Cpp" /\ ro_policy o = AllFunctionsSafe /\
    (exists y f cpp fa, In y l /\ x_kind y = XFunction f (PvSubclassCtor (xname x) true cpp) fa) /\
    forall y f cpp fa, In y l -> x_kind y <> XFunction f (PvSubclassCtor (xname x) false cpp) fa.
Proof.
  intros o order_ty order_key includes header l F Pt Pk G m o' s c O. pose proof (the_pieces _ _ _ _ _ _ _ Pt Pk G) as P.
  assert (PC : forall b q, qmem q (peer_ctors l b) = true <-> exists y f cpp fa, In y l /\ x_kind y = XFunction f (PvSubclassCtor q b cpp) fa).
  { intros b q. rewrite qmem_true. unfold peer_ctors. rewrite in_flat_map. split.
    - intros (y & Iy & H). destruct (x_kind y) eqn:K; try destruct H. destruct pv as [|sub t cpp]; [destruct H|]. destruct (Bool.eqb_spec t b) as [->|]; [|destruct H].
      destruct H as [->|[]]. eauto 8.
    - intros (y & f & cpp & fa & Iy & K). exists y. split; [exact Iy|]. rewrite K, Bool.eqb_reflx. left. reflexivity. }
  assert (NTr : forall name ms traits, superclass_traits name ms = Some traits -> ~ In (OPeerConstructor s c) traits).
  { intros name ms traits E H. unfold superclass_traits in E. destruct ms as [ms|]; [|injection E as <-; destruct H].
    destruct (all_some _) as [fs|]; [|discriminate E]. injection E as <-.
    destruct (flat_map _ fs); cbn in H; repeat (destruct H as [H|H]; [discriminate H|]); destruct H. }
  rewrite (po_items _ _ _ P _ _ O). split.
  - intros (x & p & I & GX & NS & H). unfold generate_rs_for_api in GX.
    assert (TY : forall kind mv ds g, generate_type o l (xname x) kind mv ds g = Some p -> False).
    { intros kind mv ds g E. unfold generate_type in E. destruct (superclass_traits _ _) as [traits|] eqn:T; [|discriminate E]. specialize (NTr _ _ _ T).
      assert (NT : ~ In (ISub (OPeerConstructor s c)) (map ISub traits)) by (intros X; apply in_map_iff in X as (? & [= ->] & X); exact (NTr X)).
      destruct g as [|g]; cbn [Nat.ltb Nat.leb] in E; destruct kind; injection E as <-; cbn [rp_out no_part] in H;
        try (rewrite in_app_iff in H; destruct H as [H|H]; [exact (NT H)|]); cbn in H; intuition discriminate. }
    destruct (x_kind x) eqn:K; try (exfalso; eapply TY; exact GX); try (injection GX as <-; cbn in H; intuition discriminate).
    + destruct an as [fa|]; [|discriminate GX]. unfold gen_function_rs in GX. destruct (gen_function _ _) as [g|]; [|discriminate GX]. injection GX as <-. cbn [rp_out] in H.
      exfalso. rewrite in_app_iff in H. destruct H as [H|H].
      * destruct (o_wrapper g), (fa_kind fa); cbn in H; intuition discriminate.
      * destruct (o_reexport g); cbn in H; intuition discriminate.
    + destruct an as [pa|]; [|discriminate GX]. exfalso. eapply TY; exact GX.
    + destruct ctx as [[]|]; injection GX as <-; cbn in H; intuition discriminate.
    + unfold generate_subclass_rs in GX. destruct (generate_subclass _ _ _ _) as [impls|] eqn:GS; [|discriminate GX]. injection GX as <-. cbn [rp_out] in H.
      destruct H as [H|[H|[H|H]]]; try discriminate H. rewrite in_app_iff in H. destruct H as [H|H]; [|cbn in H; intuition discriminate].
      apply in_map_iff in H as (it & [= ->] & H). unfold generate_subclass in GS.
      match type of GS with context [if ?b then [OPeerConstructor _ _] else []] => set (bb := b) in GS end.
      assert (B : In (OPeerConstructor s c) (if bb then [OPeerConstructor (qn_item (xname x)) (qn_item (subclass_cpp (xname x)))] else [])).
      { destruct (methods_of _ _ _) as [ms|]; [|injection GS as <-; exact H]. destruct (all_some _) as [[|fn fs]|]; [| |discriminate GS]; injection GS as <-; [exact H|].
        destruct H as [H|H]; [discriminate H|exact H]. }
      destruct bb eqn:EB; [|destruct B]. destruct B as [B|[]]. injection B as <- <-. subst bb.
      apply andb_true_iff in EB as [EB PO]. apply andb_true_iff in EB as [T1 T2]. apply negb_true_iff in T2.
      exists x, superclass. split; [exact I|]. split; [exact K|]. split; [rewrite <- NS; destruct (xname x); reflexivity|]. split; [reflexivity|].
      split; [destruct (ro_policy o); try discriminate PO; reflexivity|]. split; [apply PC; exact T1|].
      intros y f cpp fa Iy KY. assert (T : qmem (xname x) (peer_ctors l false) = true) by (apply PC; eauto 8). congruence.
  - intros (x & sup & I & K & NM & -> & PO & TR & NT). destruct (po_total _ _ _ P x I) as (p & GX). exists x, p. split; [exact I|]. split; [exact GX|].
    split; [rewrite NM; reflexivity|]. unfold generate_rs_for_api in GX. rewrite K in GX. unfold generate_subclass_rs in GX.
    assert (T1 : qmem (xname x) (peer_ctors l true) = true) by (apply PC; exact TR).
    assert (T2 : qmem (xname x) (peer_ctors l false) = false).
    { destruct (qmem _ (peer_ctors l false)) eqn:E; [|reflexivity]. apply PC in E as (y & f & cpp & fa & Iy & KY). elim (NT y f cpp fa Iy KY). }
    rewrite T1, T2, PO in GX. cbn [andb negb] in GX. destruct (generate_subclass _ _ _ _) as [impls|] eqn:GS; [|discriminate GX]. injection GX as <-. cbn [rp_out].
    right. right. right. apply in_app_iff. left. apply in_map. unfold generate_subclass in GS.
    assert (IN : In (OPeerConstructor s (s +++ "Cpp")) [OPeerConstructor (qn_item (xname x)) (qn_item (subclass_cpp (xname x)))]) by (left; rewrite NM; reflexivity).
    destruct (methods_of _ _ _) as [ms|]; [|injection GS as <-; exact IN].
    destruct (all_some _) as [[|fn fs]|]; [| |discriminate GS]; injection GS as <-; [exact IN | right; exact IN].
Qed.
Print Assumptions c91_default_peer.

(** ** From the user's list to the generated code *)
(** What the user lists by name, and is no function, has something in the generated Rust code under its name: what it stands for, or an
    error; unless analysis made a function of the same name. *)
Theorem c91_listed_partial : forall d l l1 r found fl o order_ty order_key includes header F,
  (forall p l, Permutation (order_ty p l) l) -> (forall p l, Permutation (order_key p l) l) -> Forall (placed o) l -> NoDup (map xname l) -> Forall filed l ->
  front (dc_front d) l = OOk l1 -> analyze_functions_x d l1 = OOk (r, found) -> final_apis d l = Some fl ->
  rs_codegen o order_ty order_key includes header fl = Some F ->
  forall x, In x l -> ~ is_function x -> ~ FrontProps.made_up (xname x) -> ac_allow (dc_front d) (to_cpp_name (xname x)) = true ->
  (exists y o', In y fl /\ xname y = xname x /\ out_at (rs_out F) (qn_ns (xname x)) o' /\ present o F o' y) \/
  exists y, In y r /\ xname y = xname x /\ (is_function y \/ exists sub sf, x_kind y = XRustSubclassFn sub sf).
Proof.
  intros d l l1 r found fl o order_ty order_key includes header F Pt Pk PL ND FI FR AN FL G x I NF NM AL.
  assert (A : analyzed d l = OOk (r, found)) by (unfold analyzed; rewrite FR; exact AN).
  pose proof FL as FL'. unfold final_apis in FL'. rewrite A in FL'. destruct (FnDriverModel.kept d l) as [v|] eqn:K; [|discriminate]. injection FL' as EF.
  destruct (c85_listed_items_partial _ _ _ _ _ _ ND FI FR AN K x I NF NM AL) as [(b & Ib & EN)|R]; [|right; exact R]. left.
  assert (Iy : In (restore r b) fl) by (rewrite <- EF; apply in_map, Ib). assert (Ey : xname (restore r b) = xname x) by (rewrite <- EN; reflexivity).
  destruct (c91_present_partial _ _ _ _ _ _ _ _ _ _ _ _ Pt Pk PL FR AN FL G _ Iy) as (o' & O & PR). rewrite Ey in O. exists (restore r b), o'. auto.
Qed.
Print Assumptions c91_listed_partial.

(** ** The definitions outside the modules *)
(** What each item defines at the top of the generated code: the functions C++ calls are those of [extern "Rust"], and each calls the
    method of the trait of its superclass with the parameters it was given. *)
Definition defines (x : xapi) (g : global) : Prop :=
  let n := qn_item (xname x) in
  match x_kind x with
  | XStringConstructor => g = GString
  | XRustType | XRustFn _ => g = GUser (xname x)
  | XRustSubclassFn _ d => exists u m, g = GUpcall (OUpcall u n (sf_params d) (sf_ret d) m (QN (qn_ns (sf_super d)) (qn_item (sf_super d) +++ "_methods")) (sf_method d) (map fst (tl (sf_params d)))) /\
      (m = true <-> sf_mut d = MMutable) /\ (u = true <-> sf_unsafe d = UAlways)
  | XSubclass _ => g = GRemoveOwnership (n +++ "_remove_ownership") (n +++ "Holder")
  | _ => False
  end.
Theorem c91_definitions : forall o order_ty order_key includes header l F,
  rs_codegen o order_ty order_key includes header l = Some F ->
  forall g, In g (rs_global F) <-> exists x, In x l /\ defines x g.
Proof.
  intros o order_ty order_key includes header l F G g. unfold rs_codegen in G. destruct (all_some _) as [ps|] eqn:A; [|discriminate G]. apply all_some_ok in A.
  destruct (bridge_includes _ _ _); try discriminate. destruct (NsModel.generate_final_output_namespace _ _ _ _ _); [|discriminate]. injection G as <-. cbn [rs_global].
  assert (ONE : forall x p, generate_rs_for_api o l x = Some p -> In g (rp_global p) <-> defines x g).
  { clear. intros x p E. unfold generate_rs_for_api in E. unfold defines.
    assert (TY : forall kind mv ds n, generate_type o l (xname x) kind mv ds n = Some p -> In g (rp_global p) <-> False).
    { intros kind mv ds n T. unfold generate_type in T. destruct (superclass_traits _ _); [|discriminate]. destruct kind; destruct (Nat.ltb 0 n); injection T as <-; cbn; tauto. }
    destruct (x_kind x) as [| | | | f pv [fa|]| | | |sd [pa|]| |e [c|]| | | | | |]; try discriminate; try (exact (TY _ _ _ _ E));
      try (injection E as <-; cbn; intuition congruence).
    - unfold gen_function_rs in E. destruct (gen_function _ _); [|discriminate]. injection E as <-. cbn. tauto.
    - injection E as <-. destruct c; cbn; tauto.
    - injection E as <-. unfold generate_subclass_fn_rs, generate_subclass_fn. cbn. split.
      + intros [<-|[]]. eexists _, _. split; [reflexivity|]. split; [destruct (sf_mut d) | destruct (sf_unsafe d)]; cbn; split; congruence.
      + intros (u & m & -> & M & U). left. unfold methods_trait_name, args_from_sig. do 2 f_equal.
        * destruct (sf_unsafe d), u; cbn; destruct U as [U1 U2]; try reflexivity; try (discriminate (U1 eq_refl)); discriminate (U2 eq_refl).
        * destruct (sf_mut d), m; destruct M as [M1 M2]; try reflexivity; try (discriminate (M1 eq_refl)); discriminate (M2 eq_refl).
    - unfold generate_subclass_rs in E. destruct (generate_subclass _ _ _ _); [|discriminate]. injection E as <-. cbn. unfold sc_remove_ownership, sc_holder, sc_with_suffix. intuition congruence. }
  rewrite in_flat_map. split.
  - intros (p & Ip & Hg). assert (X : exists x, In x l /\ generate_rs_for_api o l x = Some p); [|destruct X as (x & Ix & E); exists x; split; [exact Ix|apply (ONE x p E), Hg]].
    clear - A Ip. revert A Ip. generalize (generate_rs_for_api o l). intros f A Ip. induction A as [|x q l ps E A IH]; [destruct Ip|]. destruct Ip as [->|Ip]; [exists x; split; [left; reflexivity|exact E]|].
    destruct (IH Ip) as (y & Iy & Ey). exists y. split; [right; exact Iy|exact Ey].
  - intros (x & Ix & Hg). assert (X : exists p, In p ps /\ generate_rs_for_api o l x = Some p); [|destruct X as (p & Ip & E); exists p; split; [exact Ip|apply (ONE x p E), Hg]].
    clear - A Ix. revert A Ix. generalize (generate_rs_for_api o l). intros f A Ix. induction A as [|y q l ps E A IH]; [destruct Ix|]. destruct Ix as [->|Ix]; [exists q; split; [left; reflexivity|exact E]|].
    destruct (IH Ix) as (y' & Iy & Ey). exists y'. split; [right; exact Iy|exact Ey].
Qed.
Print Assumptions c91_definitions.

(** The code of each function is that of C66 and C28, for the classes which are not passed by value. *)
Theorem c91_functions : forall o order_ty order_key includes header l F,
  (forall p l, Permutation (order_ty p l) l) -> (forall p l, Permutation (order_key p l) l) ->
  rs_codegen o order_ty order_key includes header l = Some F ->
  exists np, (forall q, In q np <-> exists y sd pa, In y l /\ xname y = q /\ x_kind y = XStruct sd (Some pa) /\ pa_kind pa = NonPod) /\
  forall x f pv fa, In x l -> x_kind x = XFunction f pv (Some fa) -> exists g o', gen_function np fa = Some g /\ out_at (rs_out F) (qn_ns (xname x)) o' /\
    (forall b, o_bridge g = Some b -> exists ns c, In (FFn ns c b) (rs_cpp F)) /\
    (forall w, o_wrapper g = Some w ->
       match fa_kind fa with
       | FFunction => In (IFn w) (items_of o')
       | FMethod _ q => exists es, In (qn_item q, es) (impls_of o') /\ In (EFn w) es
       | FTraitMethod _ q => exists t es, In ((t, q), es) (traits_of o') /\ In (EFn w) es
       end).
Proof.
  intros o order_ty order_key includes header l F Pt Pk G. exists (find_non_pod_types l). split.
  { intros q. unfold find_non_pod_types. rewrite in_flat_map. split.
    - intros (y & Iy & H). destruct (x_kind y) as [| | | | | | | |sd [pa|]| | | | | | | |] eqn:K; try contradiction H. destruct (pa_kind pa) eqn:KP; try contradiction H.
      destruct H as [<-|[]]. exists y, sd, pa. auto.
    - intros (y & sd & pa & Iy & <- & K & KP). exists y. split; [exact Iy|]. rewrite K, KP. left. reflexivity. }
  intros x f pv fa I K. pose proof (the_pieces _ _ _ _ _ _ _ Pt Pk G) as P.
  destruct (po_module _ _ _ P x I) as (o' & O). destruct (po_total _ _ _ P x I) as (p & GX).
  destruct (the_entries _ _ _ _ _ _ _ Pt Pk G x p o' I GX O) as [TE TT].
  assert (BR : forall f, In f (rp_cpp p) -> (forall h, f <> FInclude h) -> In f (rs_cpp F)) by (intros f0 Hf NI; apply (po_cpp _ _ _ P); eauto).
  assert (IT : forall i, In i (rp_out p) -> In i (items_of o')) by (intros i Hi; apply (po_items _ _ _ P _ _ O); eauto 8).
  unfold generate_rs_for_api in GX. rewrite K in GX. unfold gen_function_rs in GX. destruct (gen_function _ fa) as [g|]; [|discriminate]. injection GX as <-.
  cbn [rp_out rp_cpp rp_impl rp_trait] in *. exists g, o'. split; [reflexivity|]. split; [exact O|]. split.
  - intros b E. rewrite E in BR. eexists _, _. apply BR; [left; reflexivity|discriminate].
  - intros w E. rewrite E in TE, TT, IT. destruct (fa_kind fa) as [|mk q|tk q].
    + apply IT. left. reflexivity.
    + destruct (TE _ _ eq_refl) as (es & E1 & E2). eauto.
    + destruct (TT _ _ eq_refl) as (es & E1 & E2). eauto.
Qed.
Print Assumptions c91_functions.

(** The classes, subclass and functions of C88's case: a method called in its class's block, a function reexported, the constructor of the
    peer called by default, and vectors of the classes which move. *)
Example c91_case :
  (exists x o', In x demo14_fl /\ xname x = QN ["ns"] "make" /\ out_at (rs_out demo14_f) ["ns"] o' /\ present ro0 demo14_f o' x) /\
  (exists x f pv fa, In x demo14_fl /\ x_kind x = XFunction f pv (Some fa) /\ fa_kind fa = FMethod (MVirtual MMutable) (FrontProps.q0 "Base") /\ present ro0 demo14_f (rs_out demo14_f) x) /\
  In (ISub (OPeerConstructor "Sub" "SubCpp")) (items_of (rs_out demo14_f)) /\ In ("CxxVector", "Outer_Inner") (rs_impls demo14_f) /\
  ~ In ("CxxVector", "SubCpp") (rs_impls demo14_f).
Proof.
  destruct c88_case as (FR & AN & FL & G & ND & _ & _ & PL & FI & _ & ON & _).
  assert (AN' : analyze_functions_x CppGenProps.all demo14_l1 = OOk (fst demo14_r, snd demo14_r)) by (rewrite AN; reflexivity).
  pose proof (c91_present_partial _ _ _ _ _ _ ro0 (fun _ l => l) (fun _ l => l) _ _ _ (fun _ => @Permutation_refl _) (fun _ => @Permutation_refl _) PL FR AN' FL G) as PR.
  split; [|split; [|split; [vm_compute; in_run|split; [vm_compute; in_run|vm_compute; intuition discriminate]]]].
  - set (x := nth 17 demo14_fl (FrontProps.named0 "" XConst)). assert (I : In x demo14_fl) by (apply (nth_error_In _ 17); vm_compute; reflexivity).
    destruct (PR x I) as (o' & O & P). exists x, o'. split; [exact I|]. split; [vm_compute; reflexivity|]. split; [exact O|exact P].
  - set (x := nth 6 demo14_fl (FrontProps.named0 "" XConst)). assert (I : In x demo14_fl) by (apply (nth_error_In _ 6); vm_compute; reflexivity).
    destruct (PR x I) as (o' & O & P). assert (EX : qn_ns (xname x) = []) by (vm_compute; reflexivity). rewrite EX in O. inversion O; subst.
    exists x. do 3 eexists. split; [exact I|]. split; [vm_compute; reflexivity|]. split; [vm_compute; reflexivity|exact P].
Qed.

Example c91_case2 : rs_of demo14_fl = Some demo14_f /\ In (GRemoveOwnership "Sub_remove_ownership" "SubHolder") (rs_global demo14_f) /\
  existsb (fun g => match g with GUpcall (OUpcall _ _ _ _ _ t m _) => qn_eqb t (FrontProps.q0 "Base_methods") && String.eqb m "m" | _ => false end) (rs_global demo14_f) = true.
Proof. split; [vm_compute; reflexivity|]. split; [vm_compute; in_run|vm_compute; reflexivity]. Qed.

(** C91. A template derived from an abstract class is kept and analysed, but nothing is generated under its name: no type, and no error
    which would say why there is none. [struct Base { int x; virtual void n() = 0; }; template <class T> struct D : Base { T y; };] *)
Definition demo19 : list xapi :=
  [CppGenProps.a_class (AN (FrontProps.q0 "Base") None); CppGenProps.a_method [] "Base" "n" VtPure;
   FrontProps.named0 "D" (XStruct (SD [BF (Some "_base") true (FrontProps.rooted "Base"); BF (Some "y") true (TPath [] "T" [])] false ["T"]) None)].
Definition demo19_fl : list xapi := Eval vm_compute in CppGenProps.final_of CppGenProps.all demo19.
Definition demo19_f : rs_file := Eval vm_compute in match rs_of demo19_fl with Some F => F | None => RsF [] [] [] [] [] end.
Theorem c91_abstract_template_refuted : exists d l fl F x, final_apis d l = Some fl /\ rs_of fl = Some F /\
  In x l /\ (exists sd, x_kind x = XStruct sd None) /\ (exists y, In y fl /\ xname y = xname x /\ x_ignored y = false) /\ ac_allow (dc_front d) (to_cpp_name (xname x)) = true /\
  (forall i, In i (items_of (rs_out F)) -> ~ introduces i (qn_item (xname x))) /\ (forall f, In f (rs_cpp F) -> ~ bridge_declares f (qn_item (xname x))) /\
  ~ In (qn_item (xname x)) (map fst (impls_of (rs_out F))).
Proof.
  exists CppGenProps.all, demo19, demo19_fl, demo19_f, (nth 2 demo19 (FrontProps.named0 "" XConst)).
  split; [vm_compute; reflexivity|]. split; [vm_compute; reflexivity|]. split; [right; right; left; reflexivity|]. split; [eexists; reflexivity|].
  split. { exists (nth 7 demo19_fl (FrontProps.named0 "" XConst)). split; [apply (nth_error_In _ 7); vm_compute; reflexivity|split; vm_compute; reflexivity]. }
  split; [vm_compute; reflexivity|]. split; [|split].
  - intros i H. vm_compute in H. assert (E : forall p, ends_in p "D" -> last p "" = "D"). { intros p X. inversion X. apply last_last. }
    repeat (destruct H as [<-|H]; [cbn; try tauto; try discriminate; intros X; apply E in X; discriminate X|]). destruct H.
  - intros f H. vm_compute in H. repeat (destruct H as [<-|H]; [cbn; try tauto; discriminate|]). destruct H.
  - vm_compute. intuition discriminate.
Qed.
Print Assumptions c91_abstract_template_refuted.
