(** C88: the parts of the generated Rust code agree with each other: the types told to cxx are defined where the bridge says they are,
    with the identity the bridge gives them, and the paths in the code lead to something. *)
From Verif Require Import Base QNamesModel QNamesProofs KnownTypesModel ApiModel ApiVecModel TypesModel ByValueModel ConversionModel SynthNamesModel
  CppTypesModel FnAnalysisModel FnCodegenModel SubclassGenModel SubclassGenProps FrontModel FnDriverModel CppGenModel CalledModel RsGenModel.
From Verif Require NsModel NsProps.
From Coq Require Import Permutation.

(** What a declaration of the bridge is called. *)
Definition bridge_declares (f : foreign) (n : string) : Prop :=
  match f with
  | FType _ _ id _ | FCType id | FHelper id _ | FMakeString id => id = n
  | FFn _ _ f => rf_name f = n
  | FInclude _ => False
  end.
(** The last name of a path. *)
Inductive ends_in : list string -> string -> Prop := ends_in_intro p n : ends_in (p ++ [n]) n.
(** What an item of a module is called, if it is a type or may be one. *)
Definition introduces (i : item) (n : string) : Prop :=
  match i with
  | IUse _ (Some a) => a = n
  | IUse p None => ends_in p n
  | IUseUser id | IOpaque id _ _ | IError id | IHolder id _ => id = n
  | _ => False
  end.
(** The paths an item of the module for [p] follows: out of the module to the top, and into the bridge or into what bindgen made. *)
Definition up (p : list string) : list string := repeat "super" (List.length p).
Definition follows (i : item) (path : list string) : Prop :=
  match i with IUse q _ | IOpaque _ _ q => q = path | _ => False end.
(** The items bindgen makes in Rust itself. *)
Definition made_by_bindgen (x : xapi) : Prop :=
  match x_kind x with XStruct _ _ | XEnum | XConst | XTypedef _ _ _ => True | _ => False end.
(** The C++ name of a type told to cxx by its attributes. *)
Definition cxx_identity (ns : list string) (cxx : option string) (id : string) : string :=
  join "::" (ns ++ [match cxx with Some n => n | None => id end]).

Notation out_at := NsProps.out_at.
Notation items_of := NsProps.items_of.
Notation impls_of := NsProps.impls_of.
Notation traits_of := NsProps.traits_of.

Section Whole.
Variables (o : rs_options) (order_ty : list string -> list (string * list entry) -> list (string * list entry))
  (order_key : list string -> list ((string * qname) * list entry) -> list ((string * qname) * list entry))
  (includes : list string) (header : option string) (l : list xapi) (F : rs_file).
Hypothesis Pt : forall p l, Permutation (order_ty p l) l.
Hypothesis Pk : forall p l, Permutation (order_key p l) l.
Hypothesis G : rs_codegen o order_ty order_key includes header l = Some F.
Notation gen := (generate_rs_for_api o l).

Lemma key_eqb_eq a b : key_eqb a b = true <-> a = b.
Proof.
  destruct a as [s q], b as [s' q']. unfold key_eqb. cbn. rewrite andb_true_iff, String.eqb_eq, qn_eqb_eq. split; [intros [-> ->]; reflexivity|intros [= -> ->]; auto].
Qed.
Lemma f2_l {A B} (R : A -> B -> Prop) xs ys : Forall2 R xs ys -> forall x, In x xs -> exists y, In y ys /\ R x y.
Proof. intros F2. induction F2 as [|x y xs ys E F2 IH]; intros x0 I; [destruct I|]. destruct I as [->|I]; [exists y; cbn; auto|]. destruct (IH _ I) as (y0 & A1 & A2). exists y0. cbn. auto. Qed.
Lemma f2_fm {A B C} (f : A -> option B) (g : B -> list C) xs ys : Forall2 (fun x y => f x = Some y) xs ys ->
  forall c, In c (flat_map g ys) <-> exists x y, In x xs /\ f x = Some y /\ In c (g y).
Proof.
  intros F2 c. rewrite in_flat_map. split.
  - intros (y & Iy & H). induction F2 as [|x y' xs ys E F2 IH]; [destruct Iy|]. destruct Iy as [->|Iy]; [exists x, y; cbn; auto|].
    destruct (IH Iy) as (x0 & y0 & A1 & A2). exists x0, y0. cbn. tauto.
  - intros (x & y & Ix & E & H). exists y. split; [|exact H]. induction F2 as [|x' y' xs ys E' F2 IH]; [destruct Ix|].
    destruct Ix as [->|Ix]; [left; congruence|right; auto].
Qed.
Lemma combined : forall xs ps, Forall2 (fun x p => gen x = Some p) xs ps ->
  forall (e : qname * NsModel.rs_result item entry string (string * qname)),
  In e (combine (map xname xs) (map (fun p => NsModel.RsResult (rp_out p) (rp_impl p) (rp_trait p)) ps)) <->
  exists x p, In x xs /\ gen x = Some p /\ e = (xname x, NsModel.RsResult (rp_out p) (rp_impl p) (rp_trait p)).
Proof.
  intros xs ps F2 e. induction F2 as [|x p xs ps E F2 IH]; cbn [map combine In]; [split; [intros []|intros (? & ? & [] & _)]|].
  rewrite IH. split.
  - intros [<-|(x0 & p0 & A & B)]; [exists x, p; auto | exists x0, p0; tauto].
  - intros (x0 & p0 & [->|A] & B & ->); [left; congruence | right; exists x0, p0; auto].
Qed.

(** Where each piece of the code comes from. *)
Record pieces_of : Prop := {
  po_total : forall x, In x l -> exists p, gen x = Some p;
  po_cpp : forall f, (forall h, f <> FInclude h) -> In f (rs_cpp F) <-> exists x p, In x l /\ gen x = Some p /\ In f (rp_cpp p);
  po_rust : forall f, In f (rs_rust F) <-> exists x p, In x l /\ gen x = Some p /\ In f (rp_rust p);
  po_impls : forall f, In f (rs_impls F) <-> exists x p, In x l /\ gen x = Some p /\ In f (rp_impls p);
  po_items : forall m o', out_at (rs_out F) m o' -> forall i, In i (items_of o') <-> exists x p, In x l /\ gen x = Some p /\ qn_ns (xname x) = m /\ In i (rp_out p);
  po_blocks : forall m o', out_at (rs_out F) m o' -> forall t, In t (map fst (impls_of o')) <->
    exists x p e, In x l /\ gen x = Some p /\ qn_ns (xname x) = m /\ rp_impl p = Some (t, e);
  po_traits : forall m o', out_at (rs_out F) m o' -> forall t, In t (map fst (traits_of o')) <->
    exists x p e, In x l /\ gen x = Some p /\ qn_ns (xname x) = m /\ rp_trait p = Some (t, e);
  po_module : forall x, In x l -> exists o', out_at (rs_out F) (qn_ns (xname x)) o' }.

Lemma block_keys {K} (eqb : K -> K -> bool) (S : forall a b, eqb a b = true <-> a = b) (bs : list (K * list entry)) ps k :
  NsProps.blocks eqb bs ps -> In k (map fst bs) <-> exists e, In (k, e) ps.
Proof.
  intros [_ B]. rewrite in_map_iff. split.
  - intros ([k' es] & <- & I). apply B in I as [E N]. cbn [fst]. destruct (filter (fun p => eqb (fst p) k') ps) as [|[k2 e] r] eqn:Q; [elim N; rewrite E; reflexivity|].
    assert (I : In (k2, e) (filter (fun p => eqb (fst p) k') ps)) by (rewrite Q; left; reflexivity).
    apply filter_In in I as [I J]. cbn in J. apply S in J as ->. eauto.
  - intros (e & I). exists (k, map snd (filter (fun p => eqb (fst p) k) ps)). split; [reflexivity|]. apply B. split; [reflexivity|].
    intros Z. apply map_eq_nil in Z. assert (J : In (k, e) (filter (fun p => eqb (fst p) k) ps)) by (apply filter_In; split; [exact I|apply S; reflexivity]).
    rewrite Z in J. destruct J.
Qed.
Lemma the_pieces : pieces_of.
Proof.
  unfold rs_codegen in G. destruct (all_some _) as [ps|] eqn:A; [|discriminate G]. apply all_some_ok in A.
  destruct (bridge_includes _ _ _) as [incs| |]; try discriminate G.
  destruct (NsModel.generate_final_output_namespace _ _ _ _ _) as [out|] eqn:N; [|discriminate G]. injection G as EF.
  destruct (NsProps.c41_output_module _ _ _ _ String.eqb key_eqb order_ty order_key
    (combine (map xname l) (map (fun p => NsModel.RsResult (rp_out p) (rp_impl p) (rp_trait p)) ps)) String.eqb_eq key_eqb_eq Pt Pk) as (out' & N' & M).
  rewrite N in N'. injection N' as <-.
  assert (HERE : forall m e, In e (map snd (NsProps.of_namespace (fun e : qname * NsModel.rs_result item entry string (string * qname) => qn_ns (fst e)) m
      (combine (map xname l) (map (fun p => NsModel.RsResult (rp_out p) (rp_impl p) (rp_trait p)) ps)))) <->
      exists x p, In x l /\ gen x = Some p /\ qn_ns (xname x) = m /\ e = NsModel.RsResult (rp_out p) (rp_impl p) (rp_trait p)).
  { intros m e. rewrite in_map_iff. split.
    - intros ([q r] & <- & I). unfold NsProps.of_namespace in I. apply filter_In in I as [I J]. apply (combined _ _ A) in I as (x & p & I1 & I2 & E).
      injection E as -> ->. cbn in J. destruct (NsProps.path_dec (qn_ns (xname x)) m) as [Z|]; [|discriminate]. exists x, p. auto.
    - intros (x & p & I1 & I2 & Z & ->). exists (xname x, NsModel.RsResult (rp_out p) (rp_impl p) (rp_trait p)). split; [reflexivity|].
      unfold NsProps.of_namespace. apply filter_In. split; [apply (combined _ _ A); eauto|]. cbn. destruct (NsProps.path_dec (qn_ns (xname x)) m); [reflexivity|contradiction]. }
  split; try rewrite <- EF; cbn [rs_cpp rs_rust rs_impls rs_out].
  - intros x I. destruct (f2_l _ _ _ A x I) as (p & _ & E). eauto.
  - intros f NI. rewrite in_app_iff, (f2_fm _ rp_cpp _ _ A). split; [|auto].
    intros [H|H]; [auto|]. apply in_map_iff in H as (h & <- & H). elim (NI h eq_refl).
  - apply (f2_fm _ rp_rust _ _ A).
  - apply (f2_fm _ rp_impls _ _ A).
  - intros m o' O i. destruct (M m o' O) as (E & _). rewrite E, in_flat_map. split.
    + intros (r & I & J). apply HERE in I as (x & p & I1 & I2 & I3 & ->). exists x, p. auto.
    + intros (x & p & I1 & I2 & I3 & J). eexists. split; [apply HERE; exists x, p; eauto|exact J].
  - intros m o' O t. destruct (M m o' O) as (_ & B & _). rewrite (block_keys _ String.eqb_eq _ _ t B). split.
    + intros (e & I). apply in_flat_map in I as (r & I & J). apply HERE in I as (x & p & I1 & I2 & I3 & ->). cbn in J.
      destruct (rp_impl p) as [[t' e']|] eqn:Q; [|destruct J]. destruct J as [J|[]]. injection J as -> ->. exists x, p, e. auto.
    + intros (x & p & e & I1 & I2 & I3 & J). exists e. apply in_flat_map. eexists. split; [apply HERE; exists x, p; eauto|]. cbn. rewrite J. left. reflexivity.
  - intros m o' O t. destruct (M m o' O) as (_ & _ & B & _). rewrite (block_keys _ key_eqb_eq _ _ t B). split.
    + intros (e & I). apply in_flat_map in I as (r & I & J). apply HERE in I as (x & p & I1 & I2 & I3 & ->). cbn in J.
      destruct (rp_trait p) as [[t' e']|] eqn:Q; [|destruct J]. destruct J as [J|[]]. injection J as -> ->. exists x, p, e. auto.
    + intros (x & p & e & I1 & I2 & I3 & J). exists e. apply in_flat_map. eexists. split; [apply HERE; exists x, p; eauto|]. cbn. rewrite J. left. reflexivity.
  - intros x I.
    destruct (f2_l _ _ _ A x I) as (p & _ & T). apply (NsProps.c41_output_has_module _ _ _ _ _ _ _ _ _ _ (xname x, NsModel.RsResult (rp_out p) (rp_impl p) (rp_trait p)) N).
    apply (combined _ _ A). eauto.
Qed.
End Whole.
(** What may become of one API, as far as names go. [l] is the list of all. *)
Section One.
Variables (o : rs_options) (l : list xapi).
Notation gen := (generate_rs_for_api o l).
Inductive shape (x : xapi) : rs_part -> Prop :=
| sh_opaque traits def k impls :
    (def = IUse (up (qn_ns (xname x)) ++ bindgen_path (xname x)) None \/ def = IOpaque (qn_item (xname x)) 0 (up (qn_ns (xname x)) ++ bindgen_path (xname x))) ->
    made_by_bindgen x -> (exists sd a, x_kind x = XStruct sd a) \/ x_kind x = XEnum -> (forall w id, In (w, id) impls -> id = qn_item (xname x)) ->
    shape x (RP [generate_cxxbridge_type l (xname x) true] [] impls [] None None
                (map ISub traits ++ [def; IExternType (qn_item (xname x)) (map_name (names_of_apis l) (xname x)) k]))
| sh_generic traits def :
    (def = IUse (up (qn_ns (xname x)) ++ bindgen_path (xname x)) None \/ exists g, def = IOpaque (qn_item (xname x)) g (up (qn_ns (xname x)) ++ bindgen_path (xname x))) ->
    made_by_bindgen x -> shape x (RP [] [] [] [] None None (map ISub traits ++ [def]))
| sh_abstract traits impls : (forall w id, In (w, id) impls -> id = qn_item (xname x)) ->
    shape x (RP [generate_cxxbridge_type l (xname x) false] [] impls [] None None
                (map ISub traits ++ [IUse (up (qn_ns (xname x)) ++ ["cxxbridge"; qn_item (xname x)]) None]))
| sh_user : shape x (RP [generate_cxxbridge_type l (xname x) true] [] [] [] None None [IUseUser (qn_item (xname x))])
| sh_string : x_kind x = XStringConstructor ->
    shape x (RP [FMakeString (ro_make_string o)] [] [] [GString] None None [IUse (up (qn_ns (xname x)) ++ ["cxxbridge"; qn_item (xname x)]) (Some "make_string")])
| sh_ctype : shape x (RP [FCType (qn_item (xname x))] [] [] [] None None [])
| sh_rust rs gs : shape x (RP [] rs [] gs None None [])
| sh_error ctx e : x_kind x = XIgnored e (Some ctx) -> shape x (generate_error_entry ctx)
| sh_subclass sup impls : x_kind x = XSubclass sup ->
    let c := qn_item (subclass_cpp (xname x)) in
    let s := qn_item sup in
    let as_id := "As_" +++ s in
    let as_mut_id := "As_" +++ s +++ "_mut" in
    let as_unique := c +++ "_As_" +++ s +++ "_UniquePtr" in
    shape x (RP [generate_cxxbridge_type l (subclass_cpp (xname x)) false; FHelper (sc_cpp_remove_ownership (xname x)) [c]; FHelper as_id [c; s];
                FHelper as_mut_id [c; s]; FHelper as_unique [c; s]]
              [RType (sc_holder (xname x)); RFn (sc_remove_ownership (xname x)) [TPath [] (sc_holder (xname x)) []]]
              (create_impl_items o c false true)
              [GRemoveOwnership (sc_remove_ownership (xname x)) (sc_holder (xname x))] None None
              ([IUse ["cxxbridge"; c] None; IHolder (sc_holder (xname x)) (qn_item (xname x)); IPeer c (sc_cpp_remove_ownership (xname x))] ++
               map ISub impls ++
               [IHelper (qn_item (xname x)) as_id [s] [sup]; IHelper (qn_item (xname x)) as_mut_id [s] []; IHelper (qn_item (xname x)) as_unique [c; s] []]))
| sh_fn f pv fa g : x_kind x = XFunction f pv (Some fa) -> gen_function (find_non_pod_types l) fa = Some g ->
    shape x (RP (match o_bridge g with Some f => [FFn (namespace_attr (xname x) fa) (cxx_name_attr fa) f] | None => [] end) [] [] []
              (match o_wrapper g, fa_kind fa with Some f, FMethod _ q => Some (qn_item q, EFn f) | _, _ => None end)
              (match o_wrapper g, fa_kind fa with Some f, FTraitMethod k q => Some ((trait_of k fa, q), EFn f) | _, _ => None end)
              (match o_wrapper g, fa_kind fa with Some f, FFunction => [IFn f] | _, _ => [] end ++
               match o_reexport g with Some alias => [generate_cxx_use_stmt (xname x) alias] | None => [] end)).

Lemma impl_items_id id mv ds w i : In (w, i) (create_impl_items o id mv ds) -> i = id.
Proof.
  unfold create_impl_items. destruct (ro_exclude_impls o); [intros []|]. rewrite in_app_iff.
  intros [H|H]; [destruct ds | destruct mv]; cbn in H; repeat (destruct H as [H|H]; [injection H as _ <-; reflexivity|]); destruct H.
Qed.
Lemma type_shape x kind mv ds g p : generate_type o l (xname x) kind mv ds g = Some p ->
  match kind with Abstract => True | _ => (exists sd a, x_kind x = XStruct sd a) \/ x_kind x = XEnum end -> shape x p.
Proof.
  unfold generate_type. destruct (superclass_traits _ _) as [traits|]; [|discriminate].
  intros E K. assert (MB : match kind with Abstract => True | _ => made_by_bindgen x end).
  { unfold made_by_bindgen. destruct kind; try exact Logic.I; destruct K as [(sd & a & ->)| ->]; exact Logic.I. }
  destruct (Nat.ltb 0 g) eqn:Z.
  - destruct kind; injection E as <-; try (apply sh_generic; [unfold generate_opaque_type, generate_bindgen_use_stmt; eauto|exact MB]). apply sh_rust.
  - apply Nat.ltb_ge in Z. assert (g = 0) as -> by lia.
    destruct kind; injection E as <-; try (apply sh_opaque; [unfold generate_opaque_type, generate_bindgen_use_stmt; auto|exact MB|exact K|apply impl_items_id]).
    apply sh_abstract. apply impl_items_id.
Qed.
Lemma gen_shape x p : gen x = Some p -> shape x p.
Proof.
  unfold generate_rs_for_api. destruct (x_kind x) eqn:K; intros E;
    try (eapply type_shape; [exact E|cbn; auto]); try discriminate E.
  - injection E as <-. apply sh_string, K.
  - destruct an as [fa|]; [|discriminate]. unfold gen_function_rs in E. destruct (gen_function _ fa) as [g|] eqn:GF; [|discriminate]. injection E as <-.
    eapply sh_fn; eauto.
  - injection E as <-. apply (sh_generic x [] (generate_bindgen_use_stmt (xname x))); [left; reflexivity | unfold made_by_bindgen; rewrite K; exact Logic.I].
  - injection E as <-. apply (sh_generic x [] (generate_bindgen_use_stmt (xname x))); [left; reflexivity | unfold made_by_bindgen; rewrite K; exact Logic.I].
  - destruct an as [pa|]; [|discriminate]. eapply type_shape; [exact E|]. destruct (pa_kind pa); auto; left; eauto.
  - injection E as <-. apply sh_ctype.
  - destruct ctx as [c|]; injection E as <-; [eapply sh_error; exact K | apply (sh_rust x [] [])].
  - injection E as <-. apply sh_rust.
  - injection E as <-. apply sh_rust.
  - injection E as <-. apply sh_rust.
  - unfold generate_subclass_rs in E. destruct (generate_subclass _ _ _ _) as [impls|]; [|discriminate]. injection E as <-. apply (sh_subclass x _ _ K).
  - injection E as <-. apply (sh_rust x [] []).
  - injection E as <-. apply sh_user.
Qed.
End One.

(** ** Identity *)
Lemma join_nested ns ms x : join "::" (ns ++ [join "::" (ms ++ [x])]) = join "::" ((ns ++ ms) ++ [x]).
Proof.
  rewrite <- app_assoc. induction ns as [|a ns IH]; [reflexivity|]. cbn [app].
  destruct (ns ++ [join "::" (ms ++ [x])]) as [|y r] eqn:E1; [destruct ns; discriminate|].
  destruct (ns ++ ms ++ [x]) as [|y' r'] eqn:E2; [destruct ns; [destruct ms|]; discriminate|].
  cbn [join] in *. rewrite IH. reflexivity.
Qed.
Lemma name_map_known (l : list (qname * option string)) : forall m q c, qget q (fold_left (fun m p => match snd p with Some c => qset (fst p) c m | None => m end) l m) = Some c ->
  In (q, Some c) l \/ qget q m = Some c.
Proof.
  induction l as [|[k [v|]] l IH]; intros m q c H; cbn [fold_left fst snd] in H; [auto| |].
  - apply IH in H as [H|H]; [left; right; exact H|]. destruct (qn_eqb q k) eqn:E.
    + apply qn_eqb_eq in E as ->. rewrite qget_qset_same in H. injection H as ->. left. left. reflexivity.
    + apply qn_eqb_neq in E. rewrite qget_qset_other in H by exact E. auto.
  - apply IH in H as [H|H]; [left; right; exact H|auto].
Qed.
(** The C++ names of the APIs, where they differ from the Rust names, have no empty part. *)
Definition whole_cpp_names (l : list xapi) : Prop := forall x c, In x l -> an_cpp (x_info x) = Some c ->
  let q := new_from_cpp_name c in join "::" (qn_ns q ++ [qn_item q]) = c.
(** No class or enum has the name of a built-in type. *)
Definition own_types (l : list xapi) : Prop := forall x, In x l -> (exists sd a, x_kind x = XStruct sd a) \/ x_kind x = XEnum -> is_known_type (xname x) = false.
Lemma identity l q b ns c id t : whole_cpp_names l -> is_known_type q = false ->
  generate_cxxbridge_type l q b = FType ns c id t -> map_name (names_of_apis l) q = cxx_identity ns c id.
Proof.
  intros W U E. unfold generate_cxxbridge_type in E. injection E as <- <- <- _. unfold cxx_identity, map_name.
  destruct (qget q (names_of_apis l)) as [n|] eqn:Q; cbn [option_map].
  - unfold names_of_apis, name_map_from in Q. apply name_map_known in Q as [Q|Q]; [|discriminate Q]. apply in_map_iff in Q as (x & E & I). injection E as _ E.
    pose proof (W x n I E) as WN. cbv zeta in WN. rewrite <- WN at 1. apply join_nested.
  - rewrite app_nil_r. unfold to_cpp_name, special_cpp_name. unfold is_known_type in U. destruct (kt_get q); [discriminate|]. reflexivity.
Qed.

Lemma ends_bindgen p q : ends_in (p ++ bindgen_path q) (qn_item q).
Proof. replace (p ++ bindgen_path q) with ((p ++ ["bindgen"; "root"] ++ qn_ns q) ++ [qn_item q]) by (unfold bindgen_path; rewrite <- !app_assoc; reflexivity). constructor. Qed.

(** A type the bridge says is defined in a module is defined there, by one of the items of that module; and a module's promise to cxx
    about a type is made about a type the bridge takes from that very module, with the same C++ name. *)
Theorem c88_bridge_types : forall o order_ty order_key includes header l F,
  (forall p l, Permutation (order_ty p l) l) -> (forall p l, Permutation (order_key p l) l) ->
  rs_codegen o order_ty order_key includes header l = Some F -> whole_cpp_names l -> own_types l ->
  (forall ns c id m, In (FType ns c id (Some m)) (rs_cpp F) -> exists o', out_at (rs_out F) m o' /\ exists i, In i (items_of o') /\ introduces i id) /\
  (forall m o' id tid k, out_at (rs_out F) m o' -> In (IExternType id tid k) (items_of o') ->
     (exists ns c, In (FType ns c id (Some m)) (rs_cpp F) /\ tid = cxx_identity ns c id) /\
     exists i, In i (items_of o') /\ introduces i id /\ forall path, follows i path -> path = up m ++ ["bindgen"; "root"] ++ m ++ [id]).
Proof.
  intros o order_ty order_key includes header l F Pt Pk G W U. pose proof (the_pieces _ _ _ _ _ _ _ Pt Pk G) as P. split.
  - intros ns c id m H. apply (po_cpp _ _ _ P) in H as (x & p & I & GX & H); [|discriminate].
    destruct (po_module _ _ _ P x I) as (o' & O). apply gen_shape in GX as SH.
    assert (Z : m = qn_ns (xname x) /\ exists i, In i (rp_out p) /\ introduces i id).
    { inversion SH; subst p; cbn [rp_cpp rp_out] in *.
      - destruct H as [H|[]]. unfold generate_cxxbridge_type in H. injection H as _ _ <- <-. split; [reflexivity|]. exists def.
        split; [apply in_app_iff; right; left; reflexivity|]. destruct H0 as [-> | ->]; cbn [introduces]; [apply ends_bindgen|reflexivity].
      - destruct H.
      - destruct H as [H|[]]. discriminate H.
      - destruct H as [H|[]]. unfold generate_cxxbridge_type in H. injection H as _ _ <- <-. split; [reflexivity|]. eexists. split; [left; reflexivity|reflexivity].
      - destruct H as [H|[]]. discriminate H.
      - destruct H as [H|[]]. discriminate H.
      - destruct H.
      - destruct ctx; destruct H.
      - cbn in H. repeat (destruct H as [H|H]; [discriminate H|]). destruct H.
      - destruct (o_bridge g); [|destruct H]. destruct H as [H|[]]. discriminate H. }
    destruct Z as (-> & i & Ii & N). exists o'. split; [exact O|]. exists i. split; [|exact N]. apply (po_items _ _ _ P _ _ O). exists x, p. auto.
  - intros m o' id tid k O H. apply (po_items _ _ _ P _ _ O) in H as (x & p & I & GX & NS & H). apply gen_shape in GX as SH.
    assert (NT : forall ts, ~ In (IExternType id tid k) (map ISub ts)) by (intros ts X; apply in_map_iff in X as (? & X & _); discriminate X).
    inversion SH; subst p; cbn [rp_cpp rp_out] in *.
    + rewrite in_app_iff in H. destruct H as [H|[H|[H|[]]]]; [elim (NT _ H)|destruct H0 as [H0|H0]; rewrite H0 in H; discriminate H|]. injection H as <- <- <-.
      destruct (generate_cxxbridge_type l (xname x) true) as [ns c id t| | | | |] eqn:E; try discriminate E. pose proof E as E'. unfold generate_cxxbridge_type in E'. injection E' as _ _ <- <-.
      split.
      * exists ns, c. split; [|eapply identity; [exact W|apply (U x I H2)|exact E]].
        apply (po_cpp _ _ _ P); [discriminate|]. eexists _, _. split; [exact I|]. split; [exact GX|]. cbn [rp_cpp]. left. rewrite <- NS. exact eq_refl.
      * exists def. split; [apply (po_items _ _ _ P _ _ O); eexists _, _; split; [exact I|]; split; [exact GX|]; split; [exact NS|]; cbn [rp_out]; apply in_app_iff; right; left; reflexivity|].
        destruct H0 as [-> | ->]; cbn [introduces follows]; (split; [first [apply ends_bindgen | reflexivity]|]); intros path <-; unfold bindgen_path; rewrite NS; reflexivity.
    + rewrite in_app_iff in H. destruct H as [H|[H|[]]]; [elim (NT _ H)|]. destruct H0 as [->|(g & ->)]; discriminate H.
    + rewrite in_app_iff in H. destruct H as [H|[H|[]]]; [elim (NT _ H)|discriminate H].
    + destruct H as [H|[]]; discriminate H.
    + destruct H as [H|[]]; discriminate H.
    + destruct H.
    + destruct H.
    + destruct ctx; cbn in H; [destruct H as [H|[]]; discriminate H..|destruct H].
    + cbn [app In] in H. destruct H as [H|[H|[H|H]]]; try discriminate H. rewrite in_app_iff in H. destruct H as [H|H]; [elim (NT _ H)|]. cbn in H. repeat (destruct H as [H|H]; [discriminate H|]). destruct H.
    + rewrite in_app_iff in H. destruct H as [H|H].
      * destruct (o_wrapper g); [|destruct H]. destruct (fa_kind fa); try contradiction H. destruct H as [H|[]]. discriminate H.
      * destruct (o_reexport g); [|destruct H]. destruct H as [H|[]]. discriminate H.
Qed.
Print Assumptions c88_bridge_types.

(** The types cxx is asked to support smart pointers and vectors of are types it is told about. *)
Theorem c88_bridge_impls : forall o order_ty order_key includes header l F,
  (forall p l, Permutation (order_ty p l) l) -> (forall p l, Permutation (order_key p l) l) ->
  rs_codegen o order_ty order_key includes header l = Some F ->
  forall w id, In (w, id) (rs_impls F) -> exists ns c t, In (FType ns c id t) (rs_cpp F).
Proof.
  intros o order_ty order_key includes header l F Pt Pk G w id H. pose proof (the_pieces _ _ _ _ _ _ _ Pt Pk G) as P.
  apply (po_impls _ _ _ P) in H as (x & p & I & GX & H). apply gen_shape in GX as SH.
  assert (Z : exists ns c t, In (FType ns c id t) (rp_cpp p)).
  { inversion SH; subst p; cbn [rp_cpp rp_impls] in *; try contradiction H.
    - apply H3 in H as ->. eexists _, _, _. left. reflexivity.
    - apply H0 in H as ->. eexists _, _, _. left. reflexivity.
    - destruct ctx; contradiction H.
    - apply impl_items_id in H as ->. eexists _, _, _. left. reflexivity. }
  destruct Z as (ns & c & t & Z). exists ns, c, t. apply (po_cpp _ _ _ P); [discriminate|]. eauto.
Qed.
Print Assumptions c88_bridge_impls.

(** The implementations generated for subclasses call functions of the bridge and name types of the bridge; the functions made for
    subclasses name types of the bridge; but for superclasses, which are types of their own. *)
Theorem c88_subclass_helpers : forall o order_ty order_key includes header l F,
  (forall p l, Permutation (order_ty p l) l) -> (forall p l, Permutation (order_key p l) l) ->
  rs_codegen o order_ty order_key includes header l = Some F ->
  let told t := (exists ns c, In (FType ns c t None) (rs_cpp F)) \/ exists x sup, In x l /\ x_kind x = XSubclass sup /\ t = qn_item sup in
  (forall id ts t, In (FHelper id ts) (rs_cpp F) -> In t ts -> told t) /\
  (forall m o' sub calls ts ps, out_at (rs_out F) m o' -> In (IHelper sub calls ts ps) (items_of o') ->
     (exists us, In (FHelper calls us) (rs_cpp F) /\ forall t, In t ts -> In t us) /\ forall q, In q ps -> exists x, In x l /\ x_kind x = XSubclass q) /\
  (forall m o' c f, out_at (rs_out F) m o' -> In (IPeer c f) (items_of o') -> (exists ns n, In (FType ns n c None) (rs_cpp F)) /\ In (FHelper f [c]) (rs_cpp F)) /\
  (forall m o' h sub, out_at (rs_out F) m o' -> In (IHolder h sub) (items_of o') -> In (RType h) (rs_rust F)).
Proof.
  intros o order_ty order_key includes header l F Pt Pk G told. pose proof (the_pieces _ _ _ _ _ _ _ Pt Pk G) as P.
  assert (SUB : forall x p, In x l -> generate_rs_for_api o l x = Some p ->
    (forall f, In f (rp_cpp p) -> (forall h, f <> FInclude h) -> In f (rs_cpp F)) /\ forall f, In f (rp_rust p) -> In f (rs_rust F)).
  { intros x p I GX. split; intros f Hf; [intros NI; apply (po_cpp _ _ _ P); eauto | apply (po_rust _ _ _ P); eauto]. }
  assert (OUT : forall m o' i, out_at (rs_out F) m o' -> In i (items_of o') -> match i with IHelper _ _ _ _ | IPeer _ _ | IHolder _ _ => True | _ => False end ->
    exists x p sup impls, In x l /\ generate_rs_for_api o l x = Some p /\ x_kind x = XSubclass sup /\
      let c := qn_item (subclass_cpp (xname x)) in
      let s := qn_item sup in
      let as_id := "As_" +++ s in
      let as_mut_id := "As_" +++ s +++ "_mut" in
      let as_unique := c +++ "_As_" +++ s +++ "_UniquePtr" in
      rp_cpp p = [generate_cxxbridge_type l (subclass_cpp (xname x)) false; FHelper (sc_cpp_remove_ownership (xname x)) [c]; FHelper as_id [c; s]; FHelper as_mut_id [c; s]; FHelper as_unique [c; s]] /\
      In (RType (sc_holder (xname x))) (rp_rust p) /\
      In i ([IUse ["cxxbridge"; c] None; IHolder (sc_holder (xname x)) (qn_item (xname x)); IPeer c (sc_cpp_remove_ownership (xname x))] ++
               map ISub impls ++
               [IHelper (qn_item (xname x)) as_id [s] [sup]; IHelper (qn_item (xname x)) as_mut_id [s] []; IHelper (qn_item (xname x)) as_unique [c; s] []])).
  { intros m o' i O H KI. apply (po_items _ _ _ P _ _ O) in H as (x & p & I & GX & NS & H). apply gen_shape in GX as SH.
    assert (NT : forall ts, ~ In i (map ISub ts)) by (intros ts X; apply in_map_iff in X as (? & <- & _); contradiction).
    inversion SH; subst p; cbn [rp_cpp rp_out rp_rust] in *; try contradiction H.
    - rewrite in_app_iff in H. destruct H as [H|[H|[H|[]]]]; [elim (NT _ H)| |subst i; contradiction KI]. subst i. destruct H0 as [H0|H0]; rewrite H0 in KI; contradiction KI.
    - rewrite in_app_iff in H. destruct H as [H|[H|[]]]; [elim (NT _ H)|]. subst i. destruct H0 as [H0|(g & H0)]; rewrite H0 in KI; contradiction KI.
    - rewrite in_app_iff in H. destruct H as [H|[H|[]]]; [elim (NT _ H)|]. subst i. contradiction KI.
    - destruct H as [H|[]]. subst i. contradiction KI.
    - destruct H as [H|[]]. subst i. contradiction KI.
    - destruct ctx; try contradiction H; destruct H as [H|[]]; subst i; contradiction KI.
    - eexists x, _, sup, impls. split; [exact I|]. split; [exact GX|]. split; [assumption|]. cbv zeta. cbn [rp_cpp rp_rust]. split; [reflexivity|]. split; [left; reflexivity|exact H].
    - rewrite in_app_iff in H. destruct H as [H|H].
      + destruct (o_wrapper g); [|contradiction H]. destruct (fa_kind fa); try contradiction H. destruct H as [H|[]]. subst i. contradiction KI.
      + destruct (o_reexport g); [|contradiction H]. destruct H as [H|[]]. subst i. contradiction KI. }
  split; [|split; [|split]].
  - intros id ts t H J. apply (po_cpp _ _ _ P) in H as (x & p & I & GX & H); [|discriminate]. destruct (SUB x p I GX) as [SC _]. apply gen_shape in GX as SH.
    inversion SH; subst p; cbn [rp_cpp] in *; try contradiction H; try (destruct H as [H|[]]; discriminate H).
    + destruct ctx; contradiction H.
    + assert (C : told c). { left. eexists _, _. apply SC; [left; reflexivity|discriminate]. }
      assert (S : told s) by (right; exists x, sup; auto).
      cbn [In] in H. destruct H as [H|[H|[H|[H|[H|[]]]]]]; [discriminate H|..]; injection H as _ <-; cbn [In] in J; intuition (subst; assumption).
    + destruct (o_bridge g); [destruct H as [H|[]]; discriminate H|contradiction H].
  - intros m o' sub calls ts ps O H. destruct (OUT _ _ _ O H Logic.I) as (x & p & sup & impls & I & GX & K & EC & _ & J). destruct (SUB x p I GX) as [SC _].
    cbv zeta in EC, J. rewrite EC in SC. apply in_app_iff in J as [J|J]; [cbn [In] in J; repeat (destruct J as [J|J]; [discriminate J|]); destruct J|].
    apply in_app_iff in J as [J|J]; [apply in_map_iff in J as (? & J & _); discriminate J|]. cbn [In] in J. destruct J as [J|[J|[J|[]]]]; injection J as <- <- <- <-.
    + split; [eexists; split; [apply SC; [do 2 right; left; reflexivity|discriminate]|]; intros t [<-|[]]; right; left; reflexivity|]. intros q [<-|[]]. eauto.
    + split; [eexists; split; [apply SC; [do 3 right; left; reflexivity|discriminate]|]; intros t [<-|[]]; right; left; reflexivity|]. intros q [].
    + split; [eexists; split; [apply SC; [do 4 right; left; reflexivity|discriminate]|]; intros t Ht; exact Ht|]. intros q [].
  - intros m o' c f O H. destruct (OUT _ _ _ O H Logic.I) as (x & p & sup & impls & I & GX & K & EC & _ & J). destruct (SUB x p I GX) as [SC _].
    cbv zeta in EC, J. rewrite EC in SC. apply in_app_iff in J as [J|J].
    + cbn [In] in J. destruct J as [J|[J|[J|[]]]]; [discriminate J..|]. injection J as <- <-. split; [eexists _, _|]; (apply SC; [|discriminate]); [left; reflexivity|right; left; reflexivity].
    + apply in_app_iff in J as [J|J]; [apply in_map_iff in J as (? & J & _); discriminate J|]. cbn [In] in J. repeat (destruct J as [J|J]; [discriminate J|]). destruct J.
  - intros m o' h sub O H. destruct (OUT _ _ _ O H Logic.I) as (x & p & sup & impls & I & GX & K & _ & ER & J). destruct (SUB x p I GX) as [_ SR].
    cbv zeta in J. apply in_app_iff in J as [J|J].
    + cbn [In] in J. destruct J as [J|[J|[J|[]]]]; [discriminate J| |discriminate J]. injection J as <- <-. apply SR, ER.
    + apply in_app_iff in J as [J|J]; [apply in_map_iff in J as (? & J & _); discriminate J|]. cbn [In] in J. repeat (destruct J as [J|J]; [discriminate J|]). destruct J.
Qed.
Print Assumptions c88_subclass_helpers.

(** ** Paths *)
From Verif Require Import ApiSpec ApiVecProofs PipelineModel PipelineProofs PipelineProps FnAnalysisProofs TypeConverterModel FrontProofs FnDriverProofs FnDriverProps KeptProps ListedProps.
From Verif Require FrontProps CppGenProps.
(** Parsing names the string constructor as the C++ code generator does, and puts subclasses at the top. *)
Definition placed (o : rs_options) (x : xapi) : Prop :=
  (x_kind x = XStringConstructor -> qn_item (xname x) = ro_make_string o) /\ forall sup, x_kind x = XSubclass sup -> qn_ns (xname x) = [].
Section Placed.
Variables (o : rs_options) (cfg : acfg).
Lemma placed_plain x : x_kind x <> XStringConstructor -> (forall sup, x_kind x <> XSubclass sup) -> placed o x.
Proof. intros A B. split; [intros E; elim (A E) | intros sup E; elim (B sup E)]. Qed.
Lemma placed_extend l v : Forall (placed o) v -> Forall (placed o) l -> Forall (placed o) (xextend cfg v l).
Proof.
  intros V L. rewrite Forall_forall in *. intros y Hy. apply xextend_in in Hy as [H|[H|(x & H & ->)]]; [auto..|]. apply placed_plain; discriminate.
Qed.
Lemma placed_convert {S} (f : S -> xapi -> S * out xapi) s s' l r : (forall s s1 x y, f s x = (s1, OOk y) -> placed o x -> placed o y) ->
  Forall (placed o) l -> x_convert cfg f s l = (s', OOk r) -> Forall (placed o) r.
Proof.
  intros Hf L C. assert (F2 : Forall2 (fun x y => placed o x -> placed o y) l r).
  { eapply x_convert_forall2; [| |exact C]; intros; [eapply Hf; eauto | apply placed_plain; discriminate]. }
  clear C. induction F2 as [|x y l r H F2 IH]; [constructor|]. inversion L; subst. constructor; auto.
Qed.
Lemma placed_made v : Forall (FrontProps.made_item cfg) v -> Forall (placed o) v.
Proof. apply Forall_impl. intros y [(p & q & def & rs & ->)|(p & q & ->)]; apply placed_plain; discriminate. Qed.
Lemma front_placed l l1 : Forall (placed o) l -> front cfg l = OOk l1 -> Forall (placed o) l1.
Proof.
  intros L H. unfold front in H. destruct (convert_typedef_targets cfg l) as [la|e| |] eqn:T; try discriminate.
  destruct (analyze_pod_apis cfg la) as [lb|e| |] eqn:P; try discriminate. injection H as <-.
  assert (LA : Forall (placed o) la).
  { unfold convert_typedef_targets in T. destruct (x_convert _ _ _ _) as [[cs extra] [r0|e| |]] eqn:C; try discriminate. injection T as <-.
    apply placed_extend; [apply placed_extend; [constructor|]|].
    - eapply placed_convert; [|exact L|exact C]. intros s s1 x y E F. unfold tdef_item in E. destruct (x_kind x) eqn:K; try (injection E as _ <-; exact F).
      destruct item as [g t|t].
      + unfold get_replacement_typedef in E. destruct (Nat.ltb 0 g); [discriminate|]. destruct (ac_fatal cfg (xname x)); [discriminate|].
        destruct (convert_type _ _ _ _ _ _) as [cs1 [an'|e| |]]; try discriminate.
        destruct (match ann_ty an' with TPath _ _ _ => _ | _ => _ end) as [[]|]; try discriminate. injection E as _ <-. apply placed_plain; discriminate.
      + injection E as _ <-. apply placed_plain; discriminate.
    - apply placed_made. change (Forall (FrontProps.made_item cfg) (snd (cs, extra))).
      eapply (FrontProps.x_convert_state cfg (fun s => Forall (FrontProps.made_item cfg) (snd s))); [| |exact C]; [intros; eapply FrontProps.tdef_state; eauto | constructor]. }
  assert (LB : Forall (placed o) lb).
  { unfold analyze_pod_apis in P. destruct (new_from_apis _ _ _) as [db| | |]; try discriminate.
    destruct (x_convert _ _ _ _) as [[cs extra] [r0|e| |]] eqn:C; try discriminate. injection P as <-.
    apply placed_extend; [apply placed_extend; [constructor|]|].
    - eapply placed_convert; [|exact LA|exact C]. intros s s1 x y E F. unfold pod_item in E. destruct (x_kind x) eqn:K; try (injection E as _ <-; exact F).
      + destruct (ac_fatal cfg (xname x)); [discriminate|]. injection E as _ <-. exact F.
      + destruct (analyze_struct _ _ _ _ _ _ _ _ _) as [cs1 [[pa made]|e| |]]; try discriminate. injection E as _ <-. apply placed_plain; discriminate.
    - apply placed_made. change (Forall (FrontProps.made_item cfg) (snd (cs, extra))).
      eapply (FrontProps.x_convert_state cfg (fun s => Forall (FrontProps.made_item cfg) (snd s))); [| |exact C]; [intros; eapply FrontProps.pod_state; eauto | constructor]. }
  assert (ADD : forall (g : xapi -> list xapi) m, (forall x y, In y (g x) -> placed o y) -> Forall (placed o) m -> Forall (placed o) (xextend cfg [] (flat_map (fun x => g x ++ [x]) m))).
  { intros g m G M. apply placed_extend; [constructor|]. rewrite Forall_forall in *. intros y Hy. apply in_flat_map in Hy as (x & Hx & Hy).
    apply in_app_iff in Hy as [Hy|[<-|[]]]; [eapply G; eauto | auto]. }
  unfold create_alloc_and_frees, add_casts. apply ADD; [|apply ADD].
  - intros x y Hy. unfold allocs_for in Hy. destruct (x_kind x); try contradiction Hy; (destruct Hy as [<-|[<-|[]]]; apply placed_plain; discriminate).
  - intros x y Hy. unfold casts_for in Hy. destruct (x_kind x); try contradiction Hy. destruct an as [pa|]; [|contradiction Hy].
    apply in_map_iff in Hy as (q & <- & _). apply placed_plain; discriminate.
  - unfold replace_hopeless_typedef_targets. apply placed_extend; [constructor|]. rewrite Forall_forall in *. intros y Hy.
    apply in_map_iff in Hy as (x & <- & Hx). apply LB in Hx. unfold replace_hopeless. destruct (x_kind x) eqn:K; try exact Hx.
    + destruct err as [[e c]|]; [|exact Hx]. apply placed_plain; discriminate.
    + destruct an as [[k deps]|]; [|exact Hx]. destruct (negb (disjoint_q _ deps)).
      * destruct (x_nested x); apply placed_plain; discriminate.
      * destruct (negb (disjoint_q _ deps)); [apply placed_plain; discriminate | exact Hx].
Qed.
End Placed.

(** What code is generated for, read off the result of function analysis. *)
Record final_facts (o : rs_options) (d : dcfg) (l1 r fl : list xapi) : Prop := {
  ff_placed : forall x, In x fl -> placed o x;
  ff_function : forall x f pv fa, In x fl -> x_kind x = XFunction f pv (Some fa) -> In x r /\ qn_item (xname x) = fa_bridge fa }.
Lemma final_facts_hold o d l l1 r found fl : Forall (placed o) l ->
  front (dc_front d) l = OOk l1 -> analyze_functions_x d l1 = OOk (r, found) -> final_apis d l = Some fl -> final_facts o d l1 r fl.
Proof.
  intros PL FR AN FL. assert (A : analyzed d l = OOk (r, found)) by (unfold analyzed; rewrite FR; exact AN).
  destruct (CppGenProps.c86_conversion d l r found fl A FL) as (_ & C).
  pose proof (front_placed o _ _ _ PL FR) as PL1. rewrite Forall_forall in PL1.
  assert (PR : forall y, In y r -> placed o y).
  { intros y Hy. destruct (account_of d l1 r found AN) as (st & AC). destruct (c82_result _ _ _ _ _ AC) as (_ & PD & _).
    destruct (PD y Hy) as [Q|(c & E)]; [|rewrite E; apply placed_plain; discriminate]. inversion Q; subst; try (apply placed_plain; discriminate). apply PL1. assumption. }
  split.
  - intros x Hx. destruct (C x Hx) as [I|[(q & K)|(y & Hy & EI & [K|(sd & pa & k & _ & K)])]]; try (apply placed_plain; congruence).
    + unfold x_ignored in I. destruct (x_kind x) eqn:K; try discriminate I. apply placed_plain; congruence.
    + specialize (PR y Hy). unfold placed, xname in *. rewrite <- K, <- EI. exact PR.
  - intros x f pv fa Hx K. destruct (C x Hx) as [I|[(q & K')|(y & Hy & EI & [K'|(sd & pa & k & _ & K')])]]; try congruence.
    + unfold x_ignored in I. rewrite K in I. discriminate I.
    + assert (y = x) as -> by (destruct x as [i k], y as [i' k']; cbn in *; congruence). split; [exact Hy|].
      destruct x as [i k]. cbn in K. subst k. destruct (function_analysed d l1 r found AN _ _ _ _ Hy) as (name & soph & pre & s & s' & Q).
      apply analyze_ok in Q as [-> _]. reflexivity.
Qed.

(** Every path an item of a module follows leads from the top to a declaration of the bridge, or to the type or constant which bindgen
    made in the module of the same name. *)
Theorem c88_paths : forall d l l1 r found fl o order_ty order_key includes header F,
  (forall p l, Permutation (order_ty p l) l) -> (forall p l, Permutation (order_key p l) l) -> Forall (placed o) l ->
  front (dc_front d) l = OOk l1 -> analyze_functions_x d l1 = OOk (r, found) -> final_apis d l = Some fl ->
  rs_codegen o order_ty order_key includes header fl = Some F ->
  forall m o' i path, out_at (rs_out F) m o' -> In i (items_of o') -> follows i path ->
  (exists n f, path = up m ++ ["cxxbridge"; n] /\ In f (rs_cpp F) /\ bridge_declares f n) \/
  exists n x, path = up m ++ ["bindgen"; "root"] ++ m ++ [n] /\ In x fl /\ xname x = QN m n /\ made_by_bindgen x.
Proof.
  intros d l l1 r found fl o order_ty order_key includes header F Pt Pk PL FR AN FL G m o' i path O Hi FO.
  pose proof (final_facts_hold o _ _ _ _ _ _ PL FR AN FL) as FF. pose proof (the_pieces _ _ _ _ _ _ _ Pt Pk G) as P.
  apply (po_items _ _ _ P _ _ O) in Hi as (x & p & I & GX & NS & H). apply gen_shape in GX as SH.
  assert (NT : forall ts, ~ In i (map ISub ts)) by (intros ts X; apply in_map_iff in X as (? & <- & _); contradiction).
  assert (BR : forall f, In f (rp_cpp p) -> (forall h, f <> FInclude h) -> In f (rs_cpp F)) by (intros f Hf NI; apply (po_cpp _ _ _ P); eauto).
  assert (BG : forall (B : made_by_bindgen x), path = up (qn_ns (xname x)) ++ bindgen_path (xname x) ->
    exists n x, path = up m ++ ["bindgen"; "root"] ++ m ++ [n] /\ In x fl /\ xname x = QN m n /\ made_by_bindgen x).
  { intros B ->. exists (qn_item (xname x)), x. unfold bindgen_path. rewrite NS. split; [reflexivity|]. split; [exact I|]. split; [|exact B]. rewrite <- NS. destruct (xname x); reflexivity. }
  inversion SH; subst p; cbn [rp_cpp rp_out] in *; try contradiction H.
  - rewrite in_app_iff in H. destruct H as [H|[H|[H|[]]]]; [elim (NT _ H)| |subst i; contradiction FO]. subst i. right. apply BG; [assumption|].
    destruct H0 as [H0|H0]; rewrite H0 in FO; symmetry; exact FO.
  - rewrite in_app_iff in H. destruct H as [H|[H|[]]]; [elim (NT _ H)|]. subst i. right. apply BG; [assumption|].
    destruct H0 as [H0|(g & H0)]; rewrite H0 in FO; symmetry; exact FO.
  - rewrite in_app_iff in H. destruct H as [H|[H|[]]]; [elim (NT _ H)|]. subst i. cbn [follows] in FO. subst path. left. rewrite NS.
    eexists _, _. split; [reflexivity|]. split; [apply BR; [left; reflexivity|discriminate]|reflexivity].
  - destruct H as [H|[]]. subst i. contradiction FO.
  - destruct H as [H|[]]. subst i. cbn [follows] in FO. subst path. left. rewrite NS.
    eexists _, _. split; [reflexivity|]. split; [apply BR; [left; reflexivity|discriminate]|]. cbn [bridge_declares]. symmetry. apply (proj1 (ff_placed _ _ _ _ _ FF x I)). assumption.
  - destruct ctx; try contradiction H; destruct H as [H|[]]; subst i; contradiction FO.
  - assert (m = []) as -> by (rewrite <- NS; eapply (proj2 (ff_placed _ _ _ _ _ FF x I)); eassumption).
    apply in_app_iff in H as [H|H]; [|apply in_app_iff in H as [H|H]; [elim (NT _ H)|cbn [In] in H; destruct H as [H|[H|[H|[]]]]; subst i; contradiction FO]].
    cbn [In] in H. destruct H as [H|[H|[H|[]]]]; subst i; try contradiction FO. cbn [follows] in FO. subst path. left.
    eexists _, _. split; [reflexivity|]. split; [apply BR; [left; reflexivity|discriminate]|reflexivity].
  - apply in_app_iff in H as [H|H]; [destruct (o_wrapper g); [|contradiction H]; destruct (fa_kind fa); try contradiction H; destruct H as [H|[]]; subst i; contradiction FO|].
    destruct (o_reexport g) as [alias|] eqn:RE; [|contradiction H]. destruct H as [H|[]]. subst i. cbn [follows generate_cxx_use_stmt] in FO. subst path. left.
    destruct (ff_function _ _ _ _ _ FF x _ _ _ I H0) as [_ EB].
    assert (OB : exists f, o_bridge g = Some f /\ rf_name f = fa_bridge fa).
    { unfold gen_function in H1. destruct (_ || _); [injection H1 as <-; discriminate RE|]. destruct (add_explicit_lifetime_if_necessary _ _ _ _ _ _) as [sg|]; [|discriminate H1].
      match type of H1 with match ?w with Some _ => _ | None => _ end = _ => destruct w as [w0|]; [|discriminate H1] end. injection H1 as <-. eexists. split; [reflexivity|reflexivity]. }
    destruct OB as (f0 & OB & NB). rewrite OB in BR. exists (qn_item (xname x)), (FFn (namespace_attr (xname x) fa) (cxx_name_attr fa) f0).
    split; [unfold find_output_mod_root, up; rewrite NS; reflexivity|]. split; [apply BR; [left; reflexivity|discriminate]|]. cbn [bridge_declares]. congruence.
Qed.
Print Assumptions c88_paths.
From Verif Require KeptProofs.

(** ** The types of [impl] blocks *)
(** The items which stand for a type. *)
Definition is_type (x : xapi) : Prop :=
  match x_kind x with
  | XStruct _ (Some _) | XEnum | XForward _ | XOpaqueTypedef _ | XConcrete _ _ | XTypedef _ _ _ | XConst | XExternCppType _ _ => True
  | _ => False
  end.
Lemma type_introduced o l x p : generate_rs_for_api o l x = Some p -> is_type x ->
  (forall sd pa, x_kind x = XStruct sd (Some pa) -> pa_generics pa = 0) -> exists i, In i (rp_out p) /\ introduces i (qn_item (xname x)).
Proof.
  intros GX T NG.
  assert (EC : forall q n, ends_in (q ++ ["cxxbridge"; n]) n) by (intros q n; change ["cxxbridge"; n] with (["cxxbridge"] ++ [n]); rewrite app_assoc; constructor).
  assert (TY : forall kind mv ds, generate_type o l (xname x) kind mv ds 0 = Some p -> exists i, In i (rp_out p) /\ introduces i (qn_item (xname x))).
  { intros kind mv ds E. unfold generate_type in E. destruct (superclass_traits _ _) as [traits|]; [|discriminate E]. cbn [Nat.ltb Nat.leb] in E.
    destruct kind; injection E as <-; cbn [rp_out]; eexists; (split; [apply in_app_iff; right; left; reflexivity|]); cbn [introduces generate_opaque_type generate_bindgen_use_stmt generate_cxx_use_stmt];
      try reflexivity; [apply ends_bindgen|apply EC]. }
  unfold is_type in T. unfold generate_rs_for_api in GX. destruct (x_kind x) eqn:K; try contradiction T; try (eapply TY; exact GX).
  - injection GX as <-. eexists. split; [left; reflexivity|]. apply ends_bindgen.
  - injection GX as <-. eexists. split; [left; reflexivity|]. apply ends_bindgen.
  - destruct an as [pa|]; [|contradiction T]. rewrite (NG _ _ eq_refl) in GX. eapply TY; exact GX.
  - injection GX as <-. eexists. split; [left; reflexivity|]. reflexivity.
Qed.

(** Every [impl] block is for a type its own module defines, or is there for an error entry, or has a method of a class which is
    elsewhere, or which analysis knows no type of the name of, or of which nothing is left but a C type or an error that names no item. *)
Theorem c88_impl_blocks_partial : forall d l l1 r found fl o order_ty order_key includes header F,
  (forall p l, Permutation (order_ty p l) l) -> (forall p l, Permutation (order_key p l) l) -> NoDup (map xname l) -> Forall (placed o) l -> Forall filed l ->
  front (dc_front d) l = OOk l1 -> analyze_functions_x d l1 = OOk (r, found) -> final_apis d l = Some fl ->
  rs_codegen o order_ty order_key includes header fl = Some F ->
  forall m o' t, out_at (rs_out F) m o' -> In t (map fst (impls_of o')) ->
  (exists i, In i (items_of o') /\ introduces i t) \/
  (exists x e n, In x fl /\ qn_ns (xname x) = m /\ x_kind x = XIgnored e (Some (CtxMethod t n))) \/
  exists x f pv fa k q, In x fl /\ qn_ns (xname x) = m /\ x_kind x = XFunction f pv (Some fa) /\ fa_kind fa = FMethod k q /\ qn_item q = t /\
    ac_allow (dc_front d) (to_cpp_name q) = true /\
    (qn_ns q <> m \/
     (forall y sup, In y fl -> x_kind y = XSubclass sup -> q <> QN [] (qn_item (xname y) +++ "Cpp")) /\
     ((forall y, In y r -> xname y = q -> ~ is_type y) \/
      exists y, In y fl /\ xname y = q /\ ((exists c, x_kind y = XCType c) \/ exists e c, x_kind y = XIgnored e c /\ c <> Some (CtxItem t)))).
Proof.
  intros d l l1 r found fl o order_ty order_key includes header F Pt Pk ND PL FI FR AN FL G m o' t O Ht.
  pose proof (final_facts_hold o _ _ _ _ _ _ PL FR AN FL) as FF. pose proof (the_pieces _ _ _ _ _ _ _ Pt Pk G) as P.
  assert (A : analyzed d l = OOk (r, found)) by (unfold analyzed; rewrite FR; exact AN).
  destruct (CppGenProps.c86_conversion d l r found fl A FL) as (NF & C).
  apply (po_blocks _ _ _ P _ _ O) in Ht as (x & p & en & I & GX & NS & H). apply gen_shape in GX as SH.
  inversion SH; subst p; cbn [rp_impl] in H; try discriminate H.
  { right. left. destruct ctx; try discriminate H. cbn in H. injection H as <- _. eauto 8. }
  destruct (o_wrapper g) as [w|] eqn:OW; [|discriminate H]. destruct (fa_kind fa) as [|k q|] eqn:FK; try discriminate H. injection H as <- _.
  destruct (ff_function _ _ _ _ _ FF x _ _ _ I H0) as [IR EB].
  assert (IG : fa_ignore fa = None). { unfold gen_function in H1. destruct (fa_ignore fa); [injection H1 as <-; discriminate OW|reflexivity]. }
  (* the class is listed and is no template *)
  assert (AL : ac_allow (dc_front d) (to_cpp_name q) = true /\ qmem q (fe_generic (x_env d l1)) = false).
  { destruct x as [nm kd]. cbn in H0. subst kd. destruct (function_analysed d l1 r found AN _ _ _ _ IR) as (name & soph & pre & s & s' & Q).
    destruct (analyze_ok _ _ _ _ _ _ _ _ _ Q) as (_ & ps0 & bads & ig0 & ps1 & r0 & ig2 & b0 & kw & PC).
    apply (pc_ignore _ _ _ _ _ _ _ _ _ _ _ _ _ _ PC) in IG as [IG _]. apply KeptProofs.references_none in IG. subst ig2.
    destruct (pc_return _ _ _ _ _ _ _ _ _ _ _ _ _ _ PC) as (s1 & s2 & [[_ E]|(e & _ & _ & E)]); [|discriminate E]. rewrite FK in E. symmetry in E.
    clear - E. unfold check_unsupported in E. destruct bads; [|discriminate]. do 3 (match type of E with (if ?b then _ else _) = _ => destruct b; [discriminate E|] end).
    destruct (_ && _) in E; [discriminate|]. destruct (fe_allow (x_env d l1) (to_cpp_name q)) eqn:AL; [|discriminate]. split; [exact AL|]. cbn [negb] in E.
    destruct (qmem q (fe_generic (x_env d l1))); [|reflexivity]. unfold set_if in E. destruct (qmem q (fe_anonymous _)); discriminate E. }
  destruct AL as [AL GEN].
  assert (NG : forall y sd pa, In y fl -> xname y = q -> x_kind y = XStruct sd (Some pa) -> pa_generics pa = 0).
  { intros y sd pa Hy EN K. destruct (C y Hy) as [Z|[(c & Z)|(z & Hz & EI & Z)]]; [unfold x_ignored in Z; rewrite K in Z; discriminate | congruence|].
    assert (KZ : exists pz, x_kind z = XStruct sd (Some pz) /\ pa_generics pz = pa_generics pa).
    { destruct Z as [Z|(sd' & pa' & k' & Z1 & Z2)]; [rewrite K in Z; eauto|]. rewrite K in Z2. injection Z2 as <- ->. eauto. }
    destruct KZ as (pz & KZ & EG). rewrite <- EG.
    destruct (account_of d l1 r found AN) as (st & AC). destruct (c82_result _ _ _ _ _ AC) as (_ & PD & _).
    destruct (PD z Hz) as [Q|(c & E)]; [|rewrite E in KZ; discriminate]. inversion Q as [z' Hz1 _| | | | | |]; subst; try discriminate KZ.
    destruct (pa_generics pz) eqn:GZ; [reflexivity|]. exfalso. apply qmem_nIn in GEN. apply GEN. cbn [x_env fe_generic]. apply in_flat_map. exists z. split; [exact Hz1|].
    rewrite KZ, GZ. cbn. left. unfold xname. rewrite EI. reflexivity. }
  assert (HERE : forall y pp i, In y fl -> generate_rs_for_api o fl y = Some pp -> qn_ns (xname y) = m -> In i (rp_out pp) -> introduces i (qn_item q) ->
    exists i, In i (items_of o') /\ introduces i (qn_item q)).
  { intros y pp i Hy GY NY Ii N. exists i. split; [|exact N]. apply (po_items _ _ _ P _ _ O). eauto 6. }
  assert (REST : qn_ns q <> m \/ (forall y sup, In y fl -> x_kind y = XSubclass sup -> q <> QN [] (qn_item (xname y) +++ "Cpp")) /\
     ((forall y, In y r -> xname y = q -> ~ is_type y) \/
      exists y, In y fl /\ xname y = q /\ ((exists c, x_kind y = XCType c) \/ exists e c, x_kind y = XIgnored e c /\ c <> Some (CtxItem (qn_item q)))) \/
     exists i, In i (items_of o') /\ introduces i (qn_item q)).
  2:{ destruct REST as [R|[R|R]]; [right; right; exists x, f, pv, fa, k, q; tauto | right; right; exists x, f, pv, fa, k, q; tauto | left; exact R]. }
  destruct (NsProps.path_dec (qn_ns q) m) as [E|E]; [right|left; exact E].
  (* a subclass *)
  destruct (existsb (fun y => match x_kind y with XSubclass _ => qn_eqb q (QN [] (qn_item (xname y) +++ "Cpp")) | _ => false end) fl) eqn:SB.
  { right. apply existsb_exists in SB as (y & Hy & SB). destruct (x_kind y) eqn:K; try discriminate SB. apply qn_eqb_eq in SB.
    destruct (po_total _ _ _ P y Hy) as (pp & GY). pose proof (proj2 (ff_placed _ _ _ _ _ FF y Hy) _ K) as NY. pose proof GY as GY'.
    unfold generate_rs_for_api in GY. rewrite K in GY. unfold generate_subclass_rs in GY. destruct (generate_subclass _ _ _ _) as [impls|]; [|discriminate]. injection GY as <-.
    eapply (HERE y _ _ Hy GY'); [rewrite NY, <- E, SB; reflexivity|left; reflexivity|]. cbn [introduces]. rewrite SB. cbn [qn_item subclass_cpp].
    change ["cxxbridge"; qn_item (xname y) +++ "Cpp"] with (["cxxbridge"] ++ [qn_item (xname y) +++ "Cpp"]). constructor. }
  assert (NSUB : forall y sup, In y fl -> x_kind y = XSubclass sup -> q <> QN [] (qn_item (xname y) +++ "Cpp")).
  { intros y sup Hy K Z. assert (B : existsb (fun y => match x_kind y with XSubclass _ => qn_eqb q (QN [] (qn_item (xname y) +++ "Cpp")) | _ => false end) fl = true).
    { apply existsb_exists. exists y. split; [exact Hy|]. rewrite K. apply qn_eqb_eq, Z. } congruence. }
  (* a class *)
  assert (TD : (forall y, In y r -> xname y = q -> ~ is_type y) \/ exists y, In y r /\ xname y = q /\ is_type y).
  { assert (DT : forall y, is_type y \/ ~ is_type y).
    { intros y. unfold is_type. destruct (x_kind y) as [| | | | | | | |sd an| | | | | | | |]; auto. destruct an; auto. }
    clear - DT. induction r as [|y r' IH]; [left; intros y []|]. destruct IH as [IH|(z & Hz & EZ & TZ)]; [|right; exists z; cbn; auto].
    destruct (qn_eqb (xname y) q) eqn:E; [apply qn_eqb_eq in E; destruct (DT y) as [T|T]; [right; exists y; cbn; auto|]|apply qn_eqb_neq in E];
      left; intros z [<-|Hz]; try (intros _; exact T); try contradiction; auto. }
  destruct TD as [TD|(y & Hy & EY & TY)]; [left; auto|].
  assert (KE : exists v, kept d l = Some v /\ fl = map (restore r) (av_apis v)).
  { unfold final_apis in FL. rewrite A in FL. destruct (kept d l) as [v|]; [|discriminate]. injection FL as <-. eauto. }
  destruct KE as (v & KE & EFL).
  assert (FY : filed y).
  { pose proof (front_filed _ _ _ ND FI FR) as FI1. rewrite Forall_forall in FI1.
    destruct (account_of d l1 r found AN) as (st & AC). destruct (c82_result _ _ _ _ _ AC) as (_ & PD & _).
    destruct (PD y Hy) as [Q|(c & Z)]; [|unfold is_type in TY; rewrite Z in TY; contradiction]. unfold is_type in TY.
    inversion Q; subst; cbn [x_kind] in TY; try contradiction TY; [apply FI1; assumption | apply filed_plain; [reflexivity|discriminate|discriminate]]. }
  destruct (asked_item d l l1 r found v FR AN KE y Hy) as (b & Hb & EB'); [intros (? & ? & ? & Z); unfold is_type in TY; rewrite Z in TY; contradiction
    |intros sub sf Z; unfold is_type in TY; rewrite Z in TY; contradiction|exact FY|rewrite EY; exact AL|].
  assert (Hz : In (restore r b) fl) by (rewrite EFL; apply in_map, Hb). set (z := restore r b) in *.
  assert (EZ : xname z = q) by (rewrite <- EY, <- EB'; reflexivity). clearbody z. clear b Hb EB'.
  destruct (po_total _ _ _ P z Hz) as (pz & GZ).
  destruct (C z Hz) as [Z|[(c & Z)|(y' & Hy' & EI & Z)]].
  - unfold x_ignored in Z. destruct (x_kind z) as [| | | | | | | | | |err ctx| | | | | |] eqn:KZ; try discriminate Z.
    assert (D : ctx = Some (CtxItem (qn_item q)) \/ ctx <> Some (CtxItem (qn_item q))).
    { destruct ctx as [[id|id|id me]|]; try (right; discriminate). destruct (string_dec id (qn_item q)) as [->|N]; [left; reflexivity|right; congruence]. }
    destruct D as [->|D]; [|left; split; [exact NSUB|right; exists z; eauto 8]]. right.
    pose proof GZ as GZ'. unfold generate_rs_for_api in GZ'. rewrite KZ in GZ'. injection GZ' as <-.
    eapply (HERE z _ _ Hz GZ); [congruence|left; reflexivity|reflexivity].
  - left. split; [exact NSUB|]. right. exists z. eauto 8.
  - right. assert (y' = y) as ->.
    { apply (FrontProps.same_entry r); auto using (r_nodup d l1 r found AN). unfold xname in *. congruence. }
    assert (TZ : is_type z). { unfold is_type in *. destruct Z as [Z|(sd & pa & k' & Z1 & Z2)]; [rewrite <- Z; exact TY|rewrite Z2; exact Logic.I]. }
    destruct (type_introduced o fl z pz GZ TZ (fun sd pa => NG z sd pa Hz EZ)) as (i & Ii & N). rewrite EZ in N.
    eapply (HERE z pz i Hz GZ); [congruence|exact Ii|exact N].
Qed.
Print Assumptions c88_impl_blocks_partial.

(** ** Cases and refutations *)
Import FrontProps CppGenProps.
Definition ro0 : rs_options := RO AllFunctionsSafe [q0 "Base"] "autocxx_make_string_ffi" false (fun _ => (true, true)).
Definition rs_of (l : list xapi) : option rs_file := rs_codegen ro0 (fun _ l => l) (fun _ l => l) ["base.h"] (Some "autocxxgen_ffi.h") l.
(** [class Base] and a subclass, as for C86, with a class in a namespace whose C++ name is [Outer::Inner] and a function returning a
    pointer to it. *)
Definition demo14 : list xapi :=
  demo7 ++ [a_class (AN (QN ["ns"] "Outer_Inner") (Some "Outer::Inner"));
            XA (AN (QN ["ns"] "make") None) (XFunction (Func "make" [] false (Some (TPtr true (TPath ["root"; "ns"] "Outer_Inner" []))) None VisPublic None None None None None None) PvOther None)].
Definition demo14_fl : list xapi := Eval vm_compute in final_of all demo14.
Definition demo14_f : rs_file := Eval vm_compute in match rs_of demo14_fl with Some F => F | None => RsF [] [] [] [] [] end.
Definition demo14_ns : list (NsModel.out item RsGenModel.entry string (string * qname)) :=
  Eval vm_compute in match filter (fun i => match i with NsModel.OMod _ _ => true | _ => false end) (rs_out demo14_f) with NsModel.OMod _ o :: _ => o | _ => [] end.
Definition demo14_l1 : list xapi := Eval vm_compute in match front (dc_front all) demo14 with OOk r => r | _ => [] end.
Definition demo14_r : list xapi * list (qname * IC.items) := Eval vm_compute in match analyze_functions_x all demo14_l1 with OOk p => p | _ => ([], []) end.
Lemma whole_dec l : forallb (fun x => match an_cpp (x_info x) with Some c => let q := new_from_cpp_name c in String.eqb (join "::" (qn_ns q ++ [qn_item q])) c | None => true end) l = true -> whole_cpp_names l.
Proof. intros H x c I E. rewrite forallb_forall in H. specialize (H x I). rewrite E in H. apply String.eqb_eq in H. exact H. Qed.
Lemma own_dec l : forallb (fun x => match x_kind x with XStruct _ _ | XEnum => negb (is_known_type (xname x)) | _ => true end) l = true -> own_types l.
Proof. intros H x I K. rewrite forallb_forall in H. specialize (H x I). destruct K as [(sd & a & K)|K]; rewrite K in H; destruct (is_known_type _); auto; discriminate. Qed.
Example c88_case : front (dc_front all) demo14 = OOk demo14_l1 /\ analyze_functions_x all demo14_l1 = OOk demo14_r /\ final_apis all demo14 = Some demo14_fl /\
  rs_of demo14_fl = Some demo14_f /\ NoDup (map xname demo14) /\ whole_cpp_names demo14_fl /\ own_types demo14_fl /\ Forall (placed ro0) demo14 /\ Forall filed demo14 /\
  (* the class in the namespace: told to cxx with its C++ name, defined in the module, with the same identity *)
  In (FType ["ns"; "Outer"] (Some "Inner") "Outer_Inner" (Some ["ns"])) (rs_cpp demo14_f) /\
  out_at (rs_out demo14_f) ["ns"] demo14_ns /\
  In (IOpaque "Outer_Inner" 0 ["super"; "bindgen"; "root"; "ns"; "Outer_Inner"]) (items_of demo14_ns) /\
  In (IExternType "Outer_Inner" "ns::Outer::Inner" false) (items_of demo14_ns) /\
  In (IUse ["super"; "cxxbridge"; "make"] None) (items_of demo14_ns) /\
  (* the subclass *)
  In (FHelper "SubCpp_As_Base_UniquePtr" ["SubCpp"; "Base"]) (rs_cpp demo14_f) /\ In (IHelper "Sub" "As_Base" ["Base"] [q0 "Base"]) (items_of (rs_out demo14_f)) /\
  In ("UniquePtr", "SubCpp") (rs_impls demo14_f) /\ In "SubCpp" (map fst (impls_of (rs_out demo14_f))).
Proof.
  split; [vm_compute; reflexivity|]. split; [vm_compute; reflexivity|]. split; [vm_compute; reflexivity|]. split; [vm_compute; reflexivity|].
  split; [vm_compute; repeat constructor; cbn; intuition discriminate|].
  split; [apply whole_dec; vm_compute; reflexivity|]. split; [apply own_dec; vm_compute; reflexivity|].
  split. { unfold demo14, demo7. cbn [app]. repeat apply Forall_cons; try apply Forall_nil; split; try discriminate; reflexivity. }
  split. { unfold demo14, demo7. cbn [app]. repeat apply Forall_cons; try apply Forall_nil; apply filed_plain; try discriminate; reflexivity. }
  split; [vm_compute; in_run|].
  split. { apply NsProps.oa_in with (o1 := demo14_ns); [|apply NsProps.oa_here]. apply (nth_error_In _ (List.length (rs_out demo14_f) - 1)). vm_compute. reflexivity. }
  repeat (split; [vm_compute; in_run|]). vm_compute. in_run.
Qed.

(** C88. The functions made for a Rust subclass name its C++ class even when the subclass itself is refused, because its superclass
    was: cxx is told of functions of a type it is told nothing about, and there is an [impl] block for a type which does not exist.
    Here the superclass [Base] could not be understood, nor could the type of the parameter of its method [m]. *)
Definition demo15 : list xapi :=
  [named0 "Base" (XIgnored (EOther "Unsupported") (Some (CtxItem "Base"))); named0 "Bad" (XIgnored (EOther "Unsupported") (Some (CtxItem "Bad")));
   XA (AN (q0 "Base_m") (Some "m")) (XFunction (Func "Base_m" [("this", TPtr true (rooted "Base")); ("b", TPtr true (rooted "Bad"))] false None (Some VtVirtual) VisPublic None
     (Some (q0 "Base")) None None None None) PvOther None);
   named0 "Sub" (XSubclass (q0 "Base"))].
Theorem c88_refused_subclass_refuted : exists d l fl F f,
  final_apis d l = Some fl /\ rs_of fl = Some F /\
  In (FFn [] None f) (rs_cpp F) /\ sg_ret (rf_sig f) = Some (RTy (TPtr true (TPath [] "SubCpp" []))) /\
  In "SubCpp" (map fst (impls_of (rs_out F))) /\
  (forall g, In g (rs_cpp F) -> ~ bridge_declares g "SubCpp") /\ (forall g, In g (rs_rust F) -> g <> RType "SubCpp") /\
  (forall i, In i (items_of (rs_out F)) -> ~ introduces i "SubCpp") /\
  In (IError "Sub") (items_of (rs_out F)).
Proof.
  exists all, demo15, (final_of all demo15), (match rs_of (final_of all demo15) with Some F => F | None => RsF [] [] [] [] [] end). eexists.
  split; [vm_compute; reflexivity|]. split; [vm_compute; reflexivity|]. split; [vm_compute; left; reflexivity|]. split; [reflexivity|].
  split; [vm_compute; in_run|]. split; [|split; [|split]].
  - intros g H B. vm_compute in H. repeat (destruct H as [<-|H]; [vm_compute in B; discriminate B || contradiction B|]). destruct H.
  - intros g H. vm_compute in H. destruct H.
  - intros i H B. vm_compute in H. repeat (destruct H as [<-|H]; [vm_compute in B; discriminate B|]). destruct H.
  - vm_compute. in_run.
Qed.
Print Assumptions c88_refused_subclass_refuted.
