(** C86: the additional C++ files, and what the bridge includes of them. *)
From Verif Require Import Base QNamesModel KnownTypesModel ApiModel ApiVecModel TypesModel TypeConverterModel ByValueModel ConversionModel SynthNamesModel
  CppTypesModel CppTypesProofs CppWrapperModel FnAnalysisModel SubclassGenModel FrontModel FnDriverModel CppGenModel.

(** ** What the files have to contain *)
Section Spec.
Variable o : cpp_options.
Variable m : name_map.

(** The wrapper to be written for a function: one which is not refused and which Rust calls. *)
Definition to_wrap (x : xapi) : option cpp_function :=
  match x_kind x with
  | XFunction _ _ (Some fa) => match fa_ignore fa with None => if fa_external fa then fa_wrapper fa else None | Some _ => None end
  | _ => None
  end.

(** What an API puts among the type definitions, and among the declarations. *)
Definition type_text (x : xapi) (t : option string) : Prop :=
  match x_kind x with
  | XConcrete cpp None => t = Some ("typedef " +++ cpp +++ " " +++ qn_item (xname x) +++ ";")
  | XConcrete _ (Some rs) => exists s, type_to_cpp m rs = COk s /\ t = Some ("typedef " +++ s +++ " " +++ qn_item (xname x) +++ ";")
  | XCType q => t = Some ("typedef " +++ to_cpp_name q +++ " " +++ qn_item q +++ ";")
  | _ => t = None
  end.
Definition decl_text (x : xapi) (t : option string) : Prop :=
  match x_kind x with
  | XStringConstructor =>
      t = Some ("inline std::unique_ptr<std::string> " +++ co_make_string o +++
                "(::rust::Str str) { return std::make_unique<std::string>(std::string(str)); }")
  | XFunction _ _ _ =>
      match to_wrap x with
      | Some w => exists d, generate_cpp_function m w = COk d /\ t = Some (fst (show_def d))
      | None => t = None
      end
  | XStruct _ (Some (PA Pod _ _ _ _ _ _ _)) =>
      let n := qualified_cpp_name (x_info x) in
      t = Some ("static_assert(::rust::IsRelocatable<" +++ n +++ ">::value, " +++ quoted ("type " +++ n +++
            " should be trivially move constructible and trivially destructible to be used with generate_pod! in autocxx") +++ ");")
  | _ => t = None
  end.

(** The subclasses; their constructors, and the methods they override. *)
Definition subclasses (l : list xapi) : list (qname * qname) :=
  flat_map (fun x => match x_kind x with XSubclass sup => [(xname x, sup)] | _ => [] end) l.
Definition constructors_for (l : list xapi) (sub : qname) : list cpp_function :=
  flat_map (fun x => match x_kind x, to_wrap x with
                     | XFunction _ (PvSubclassCtor s _ c) _, Some _ => if qname_eq_dec s sub then [c] else []
                     | _, _ => []
                     end) l.
Definition methods_for (l : list xapi) (sub : qname) : list (cpp_function * bool) :=
  flat_map (fun x => match x_kind x with XRustSubclassFn s d => if qname_eq_dec s sub then [(sf_cpp d, sf_pure d)] else [] | _ => [] end) l.

(** What is written for a method: the overriding function, which calls Rust, and, if there is anything to call, the function
    by which Rust calls the superclass. *)
Record method_code := MC { mc_override : cpp_def; mc_super : option cpp_def }.
Definition method_written (sup : qname) (p : cpp_function * bool) (c : method_code) : Prop :=
  override_of m (fst p) = COk (mc_override c) /\
  if snd p then mc_super c = None
  else exists s, mc_super c = Some s /\ super_call_of m sup (cf_wrapper_name (fst p) +++ "_super") (fst p) = COk s.
Definition in_class (c : method_code) : list string := fst (show_def (mc_override c)) :: map (fun d => fst (show_def d)) (match mc_super c with Some s => [s] | None => [] end).

(** What is written for a subclass. *)
Record class_code := CC { cc_sub : qname; cc_sup : qname; cc_ctors : list cpp_def; cc_methods : list method_code }.
Definition class_written (l : list xapi) (s : qname * qname) (c : class_code) : Prop :=
  cc_sub c = fst s /\ cc_sup c = snd s /\
  Forall2 (fun f d => constructor_of m f = COk d) (constructors_for l (fst s)) (cc_ctors c) /\
  Forall2 (method_written (snd s)) (methods_for l (fst s)) (cc_methods c).
Definition class_text (c : class_code) : string :=
  "class " +++ qn_display (subclass_cpp (cc_sub c)) +++ " : public " +++ to_cpp_name (cc_sup c) +++ nl +++ "{" +++ nl +++ "public:" +++ nl +++
  join nl (map (fun d => fst (show_def d)) (cc_ctors c)) +++ nl +++
  join nl (flat_map in_class (cc_methods c) ++
    ["const " +++ qn_item (cc_sup c) +++ "& As_" +++ qn_item (cc_sup c) +++ "() const { return *this; }";
     qn_item (cc_sup c) +++ "& As_" +++ qn_item (cc_sup c) +++ "_mut() { return *this; }"]) +++ nl +++
  "void " +++ (qn_item (cc_sub c) +++ "Cpp_remove_ownership") +++ "() const;" +++ nl +++ "private:rust::Box<" +++ (qn_item (cc_sub c) +++ "Holder") +++ "> obs;" +++ nl +++
  "void really_remove_ownership();" +++ nl +++ nl +++ "};".
Definition holder_text (c : class_code) : string := "struct " +++ (qn_item (cc_sub c) +++ "Holder") +++ ";".
Definition cast_text (c : class_code) : string :=
  let cpp := qn_display (subclass_cpp (cc_sub c)) in let sup := to_cpp_name (cc_sup c) in
  "inline std::unique_ptr<" +++ sup +++ "> " +++ cpp +++ "_As_" +++ qn_item (cc_sup c) +++ "_UniquePtr(std::unique_ptr<" +++ cpp +++
  "> u) { return std::unique_ptr<" +++ sup +++ ">(u.release()); }".
Definition release_text (c : class_code) : string :=
  let cpp := qn_display (subclass_cpp (cc_sub c)) in
  "void " +++ cpp +++ "::" +++ (qn_item (cc_sub c) +++ "Cpp_remove_ownership") +++ "() const {" +++ nl +++ "const_cast<" +++ cpp +++ "*>(this)->really_remove_ownership();" +++ nl +++ "}" +++ nl +++
  "void " +++ cpp +++ "::really_remove_ownership() {" +++ nl +++ "auto new_obs = " +++ (qn_item (cc_sub c) +++ "_remove_ownership") +++ "(std::move(obs));" +++ nl +++
  "obs = std::move(new_obs);" +++ nl +++ "}" +++ nl.
(** The definitions of overriding functions. *)
Definition override_text (c : method_code) : string :=
  let d := mc_override c in
  show_signature d (match d_qual d with Some q => q +++ "::" | None => "" end) +++ " " +++ show_super d +++ " { " +++ show_stmt (d_body d) +++ " }".
End Spec.

(** ** Proofs *)
Section Proofs.
Variable o : cpp_options.
Variable m : name_map.

Lemma cbind_ok {A B} (x : conv A) (f : A -> conv B) b : cbind x f = COk b <-> exists a, x = COk a /\ f a = COk b.
Proof. destruct x; cbn; split; try discriminate; [intros H; eauto|intros (a' & E & H); injection E as ->; exact H|intros (a & E & _); discriminate|intros (a & E & _); discriminate]. Qed.

(** What one API contributes by itself. *)
Definition own (x : xapi) : conv (list extra) :=
  match x_kind x with
  | XStringConstructor => COk [generate_string_constructor o]
  | XFunction _ _ _ => match to_wrap x with Some w => cbind (generate_cpp_function m w) (fun d => COk [fn_extra d]) | None => COk [] end
  | XConcrete cpp rs => cbind (match rs with Some t => type_to_cpp m t | None => COk cpp end) (fun def => COk [generate_typedef (xname x) def])
  | XCType q => COk [generate_ctype_typedef q]
  | XStruct _ (Some pa) => match pa_kind pa with Pod => COk [generate_pod_assertion (qualified_cpp_name (x_info x))] | _ => COk [] end
  | _ => COk []
  end.

Lemma add_need_spec x s r : needs_cpp_codegen x = true ->
  add_need o m s x = COk r <->
  exists e, own x = COk e /\ ns_extra r = ns_extra s ++ e /\ ns_deferred r = ns_deferred s ++ subclasses [x] /\
    ns_ctors r = (match x_kind x, to_wrap x with XFunction _ (PvSubclassCtor sub _ c) _, Some _ => entry_push sub c (ns_ctors s) | _, _ => ns_ctors s end) /\
    ns_methods r = (match x_kind x with XRustSubclassFn sub d => entry_push sub (sf_cpp d, sf_pure d) (ns_methods s) | _ => ns_methods s end).
Proof.
  unfold needs_cpp_codegen, add_need, own, to_wrap, subclasses. cbn [flat_map].
  destruct s as [e1 c1 m1 d1], r as [e2 c2 m2 d2]; cbn [ns_extra ns_ctors ns_methods ns_deferred push_extra].
  destruct (x_kind x) as [| |cpp rs| |f pv [fa|]| | | |sd [pa|]|q| | | |sub d|sup| |]; try discriminate; intros N; rewrite ?app_nil_r.
  - rewrite cbind_ok. split.
    + intros (a & E & H). injection H as <- <- <- <-. exists [generate_typedef (xname x) a]. rewrite E. cbn. repeat split.
    + intros (e & E & -> & -> & -> & ->). apply cbind_ok in E as (a & E & H). exists a. split; [exact E|]. injection H as <-. reflexivity.
  - split; [intros H; injection H as <- <- <- <-; eexists; repeat split|intros (e & E & -> & -> & -> & ->); injection E as <-; reflexivity].
  - destruct (fa_wrapper fa) as [w|], (fa_ignore fa), (fa_external fa); try discriminate.
    rewrite cbind_ok. split.
    + intros (a & E & H). exists [fn_extra a]. rewrite E. cbn [cbind]. destruct pv; cbn in H; injection H as <- <- <- <-; repeat split.
    + intros (e & E & -> & -> & -> & ->). apply cbind_ok in E as (a & E & H). exists a. split; [exact E|]. injection H as <-. destruct pv; reflexivity.
  - destruct (pa_kind pa); try discriminate.
    split; [intros H; injection H as <- <- <- <-; eexists; repeat split|intros (e & E & -> & -> & -> & ->); injection E as <-; reflexivity].
  - split; [intros H; injection H as <- <- <- <-; eexists; repeat split|intros (e & E & -> & -> & -> & ->); injection E as <-; reflexivity].
  - split; [intros H; injection H as <- <- <- <-; exists []; rewrite app_nil_r; repeat split|intros (e & E & -> & -> & -> & ->); injection E as <-; rewrite app_nil_r; reflexivity].
  - split; [intros H; injection H as <- <- <- <-; exists []; rewrite app_nil_r; repeat split|intros (e & E & -> & -> & -> & ->); injection E as <-; rewrite app_nil_r; reflexivity].
Qed.

Definition entry {A} (k : qname) (t : list (qname * list A)) : list A := match qget k t with Some l => l | None => [] end.
Lemma entry_push_at {A} k k' (a : A) t : entry k (entry_push k' a t) = entry k t ++ (if qname_eq_dec k' k then [a] else []).
Proof.
  unfold entry, entry_push. destruct (qname_eq_dec k' k) as [->|N].
  - rewrite qget_qset_same. destruct (qget k t); reflexivity.
  - rewrite (qget_qset_other k' k) by congruence. rewrite app_nil_r. reflexivity.
Qed.

Lemma add_each_spec l : forall s r, (forall x, In x l -> needs_cpp_codegen x = true) -> add_each o m s l = COk r ->
  exists e, cmap own l = COk e /\ ns_extra r = ns_extra s ++ concat e /\ ns_deferred r = ns_deferred s ++ subclasses l /\
    (forall q, entry q (ns_ctors r) = entry q (ns_ctors s) ++ constructors_for l q) /\
    (forall q, entry q (ns_methods r) = entry q (ns_methods s) ++ methods_for l q).
Proof.
  induction l as [|x l IH]; intros s r N H; cbn [add_each] in H.
  - injection H as <-. exists []. cbn. repeat split; intros; rewrite app_nil_r; reflexivity.
  - apply cbind_ok in H as (s1 & E1 & H). apply add_need_spec in E1 as (e1 & O & X1 & D1 & C1 & M1); [|apply N; left; reflexivity].
    apply IH in H as (e & OE & X & D & C & M); [|intros; apply N; right; assumption].
    exists (e1 :: e). split; [cbn; rewrite O; cbn; fold (cmap own); rewrite OE; reflexivity|].
    split; [rewrite X, X1, <- app_assoc; reflexivity|]. split.
    { rewrite D, D1, <- app_assoc. unfold subclasses. cbn [flat_map]. rewrite app_nil_r. reflexivity. }
    split; intros q; [rewrite C, C1|rewrite M, M1].
    + unfold constructors_for at 2. cbn [flat_map]. fold (constructors_for l q).
      destruct (x_kind x) as [| | | |? [|sub tr c] ?| | | | | | | | | | | |]; try (cbn; reflexivity).
      destruct (to_wrap x); [|reflexivity]. rewrite entry_push_at, <- app_assoc. destruct (qname_eq_dec sub q); reflexivity.
    + unfold methods_for at 2. cbn [flat_map]. fold (methods_for l q).
      destruct (x_kind x) as [| | | | | | | | | | | | |sub d| | |]; try (cbn; reflexivity).
      rewrite entry_push_at, <- app_assoc. destruct (qname_eq_dec sub q); reflexivity.
Qed.

Lemma add_each_total l : forall s e, (forall x, In x l -> needs_cpp_codegen x = true) -> cmap own l = COk e -> exists r, add_each o m s l = COk r.
Proof.
  induction l as [|x l IH]; intros s e N H; cbn [add_each].
  - eauto.
  - cbn in H. apply cbind_ok in H as (e1 & O & H). fold (cmap own) in H. apply cbind_ok in H as (es & OE & _).
    assert (E : exists s1, add_need o m s x = COk s1).
    { eexists (NS _ _ _ _). apply (add_need_spec x s); [apply N; left; reflexivity|]. exists e1. cbn [ns_extra ns_ctors ns_methods ns_deferred]. repeat split. exact O. }
    destruct E as [s1 E]. rewrite E. cbn. apply (IH s1 es); [|exact OE]. intros; apply N; right; assumption.
Qed.

Lemma entry_del_other {A} k k' (t : list (qname * list A)) : k <> k' -> entry k (qdel k' t) = entry k t.
Proof. intros N. unfold entry. rewrite qget_qdel_other by congruence. reflexivity. Qed.

Definition class_of_sub (cs : qname -> list cpp_function) (ms : qname -> list (cpp_function * bool)) (p : qname * qname) : conv (list extra) :=
  generate_subclass_cpp m (snd p) (fst p) (cs (fst p)) (ms (fst p)).
Lemma add_subclasses_spec cs ms l : forall acc ct mt, NoDup (map fst l) ->
  (forall q, In q (map fst l) -> entry q ct = cs q) -> (forall q, In q (map fst l) -> entry q mt = ms q) ->
  add_subclasses m acc ct mt l = cbind (cmap (class_of_sub cs ms) l) (fun e => COk (acc ++ concat e)).
Proof.
  induction l as [|[sub sup] l IH]; intros acc ct mt ND C M; cbn [add_subclasses].
  - cbn. rewrite app_nil_r. reflexivity.
  - cbn [map fst] in *. inversion ND as [|? ? N ND']; subst.
    unfold take_entry. fold (entry sub ct). fold (entry sub mt).
    rewrite (C sub), (M sub) by (left; reflexivity). cbn [cmap]. fold (cmap (class_of_sub cs ms)).
    unfold class_of_sub at 1. cbn [fst snd]. destruct (generate_subclass_cpp m sup sub (cs sub) (ms sub)) as [e| |]; cbn [cbind]; try reflexivity.
    rewrite IH; [destruct (cmap (class_of_sub cs ms) l); cbn; rewrite ?app_assoc; reflexivity|exact ND'| |];
      intros q I; (rewrite entry_del_other; [first [apply C|apply M]; right; exact I|intros ->; contradiction]).
Qed.

Lemma filter_flat_map {A B} (p : A -> bool) (f : A -> list B) l : (forall x, p x = false -> f x = []) -> flat_map f (filter p l) = flat_map f l.
Proof. intros H. induction l as [|x l IH]; cbn; [reflexivity|]. destruct (p x) eqn:E; cbn; rewrite IH; [reflexivity|rewrite (H x E); reflexivity]. Qed.
Lemma needs_to_wrap x w : to_wrap x = Some w -> needs_cpp_codegen x = true.
Proof.
  unfold to_wrap, needs_cpp_codegen. destruct (x_kind x) as [| | | |f pv [fa|]| | | | | | | | | | | |]; try discriminate.
  destruct (fa_ignore fa); [discriminate|]. destruct (fa_external fa); [|discriminate]. intros ->. reflexivity.
Qed.
Lemma own_unneeded x : needs_cpp_codegen x = false -> own x = COk [].
Proof.
  unfold own. destruct (to_wrap x) as [w|] eqn:W; [rewrite (needs_to_wrap _ _ W); discriminate|].
  unfold needs_cpp_codegen. destruct (x_kind x) as [| | | |f pv [fa|]| | | |sd [pa|]| | | | | | | |]; try discriminate; try reflexivity.
  destruct (pa_kind pa); [discriminate|reflexivity..].
Qed.
Lemma cmap_concat {A B} (p : A -> bool) (f : A -> conv (list B)) l r : (forall x, p x = false -> f x = COk []) ->
  (exists e, cmap f (filter p l) = COk e /\ r = concat e) <-> (exists e, cmap f l = COk e /\ r = concat e).
Proof.
  intros H. revert r. induction l as [|x l IH]; intros r; cbn [filter]; [reflexivity|]. destruct (p x) eqn:E.
  - cbn [cmap]. fold (cmap f). split; intros (e & M & ->); apply cbind_ok in M as (b & F & M); apply cbind_ok in M as (bs & G & M); injection M as <-.
    + destruct (proj1 (IH (concat bs)) (ex_intro _ bs (conj G eq_refl))) as (es & G' & EQ). exists (b :: es). rewrite F, G'. cbn. rewrite EQ. split; reflexivity.
    + destruct (proj2 (IH (concat bs)) (ex_intro _ bs (conj G eq_refl))) as (es & G' & EQ). exists (b :: es). rewrite F, G'. cbn. rewrite EQ. split; reflexivity.
  - rewrite IH. cbn [cmap]. fold (cmap f). rewrite (H x E). cbn [cbind]. split.
    + intros (e & M & ->). exists ([] :: e). rewrite M. split; reflexivity.
    + intros (e & M & ->). apply cbind_ok in M as (bs & G & M). injection M as <-. exists bs. split; [exact G|reflexivity].
Qed.

Lemma subclasses_names l : incl (map fst (subclasses l)) (map xname l) /\ (NoDup (map xname l) -> NoDup (map fst (subclasses l))).
Proof.
  induction l as [|x l [I ND]]; [split; [intros ? []|constructor]|].
  unfold subclasses in *. cbn [flat_map map]. destruct (x_kind x); cbn [app map fst]; try (split; [intros q Hq; right; apply I, Hq|inversion 1; auto]).
  split; [intros q [<-|Hq]; [left; reflexivity|right; apply I, Hq]|]. inversion 1; subst. constructor; auto.
Qed.

(** The whole of what is generated. *)
Lemma add_needs_spec l ex : NoDup (map xname l) ->
  add_needs o m (filter needs_cpp_codegen l) = COk ex <->
  exists e c, cmap own l = COk e /\ cmap (class_of_sub (constructors_for l) (methods_for l)) (subclasses l) = COk c /\ ex = concat e ++ concat c.
Proof.
  intros ND.
  assert (F : forall x, In x (filter needs_cpp_codegen l) -> needs_cpp_codegen x = true) by (intros x I; apply filter_In in I; tauto).
  assert (S : subclasses (filter needs_cpp_codegen l) = subclasses l).
  { apply filter_flat_map. intros x. unfold needs_cpp_codegen. destruct (x_kind x); intros; try reflexivity; discriminate. }
  assert (C : forall q, constructors_for (filter needs_cpp_codegen l) q = constructors_for l q).
  { intros q. apply filter_flat_map. intros x N. destruct (x_kind x) as [| | | |? [|sub tr c] ?| | | | | | | | | | | |] eqn:K; try reflexivity.
    destruct (to_wrap x) eqn:W; [rewrite (needs_to_wrap _ _ W) in N; discriminate|reflexivity]. }
  assert (M : forall q, methods_for (filter needs_cpp_codegen l) q = methods_for l q).
  { intros q. apply filter_flat_map. intros x. unfold needs_cpp_codegen. destruct (x_kind x); intros; try reflexivity; discriminate. }
  assert (G : forall r, add_each o m (NS [] [] [] []) (filter needs_cpp_codegen l) = COk r ->
    add_subclasses m (ns_extra r) (ns_ctors r) (ns_methods r) (ns_deferred r) =
      cbind (cmap (class_of_sub (constructors_for l) (methods_for l)) (subclasses l)) (fun c => COk (ns_extra r ++ concat c))).
  { intros r E. apply (add_each_spec _ _ _ F) in E as (e & O & X & D & Ct & Mt). cbn in X, D. rewrite X, D, S.
    apply add_subclasses_spec; [apply subclasses_names, ND| |]; intros q _; [rewrite Ct|rewrite Mt]; cbn; auto. }
  unfold add_needs. rewrite cbind_ok. split.
  - intros (r & E & H). rewrite (G r E) in H. apply cbind_ok in H as (c & CM & H). injection H as <-.
    apply (add_each_spec _ _ _ F) in E as (e & O & X & _). cbn in X.
    destruct (proj1 (cmap_concat needs_cpp_codegen own l (concat e) own_unneeded) (ex_intro _ e (conj O eq_refl))) as (e' & O' & EQ).
    exists e', c. rewrite X, EQ. auto.
  - intros (e & c & O & CM & ->).
    destruct (proj2 (cmap_concat needs_cpp_codegen own l (concat e) own_unneeded) (ex_intro _ e (conj O eq_refl))) as (e' & O' & EQ).
    destruct (add_each_total _ (NS [] [] [] []) _ F O') as [r E]. exists r. split; [exact E|]. rewrite (G r E), CM. cbn.
    apply (add_each_spec _ _ _ F) in E as (e2 & O2 & X & _). cbn in X. rewrite O' in O2. injection O2 as <-. rewrite X, EQ. reflexivity.
Qed.
End Proofs.

(** ** Includes *)
Definition allocates (f : cpp_function) : Prop := match cf_payload f with CbAlloc _ | CbFree _ => True | _ => False end.
(** The functions of [l] for which some C++ function is written. *)
Definition has_code (l : list xapi) (f : cpp_function) : Prop :=
  (exists x, In x l /\ to_wrap x = Some f) \/
  (exists s, In s (subclasses l) /\ (In f (constructors_for l (fst s)) \/ In f (map fst (methods_for l (fst s))))).
Definition makes_string (l : list xapi) : Prop := exists x, In x l /\ x_kind x = XStringConstructor.
Definition has_pod (l : list xapi) : Prop := exists x d pa, In x l /\ x_kind x = XStruct d (Some pa) /\ pa_kind pa = Pod.
Definition comes_before {A} (a b : A) (l : list A) : Prop := exists u v w, l = u ++ a :: v ++ b :: w.
Record right_includes (o : cpp_options) (l : list xapi) (hs : list header) : Prop := RI {
  ri_once : NoDup hs;
  ri_cxx : In HCxxH hs <-> co_suppress_system o = false /\ (makes_string l \/ has_pod l);
  ri_memory : In (HSystem "memory") hs <-> co_suppress_system o = false /\ (makes_string l \/ exists f, has_code l f);
  ri_string : In (HSystem "string") hs <-> co_suppress_system o = false /\ makes_string l;
  ri_prelude : In HNewDelete hs <-> exists f, has_code l f /\ allocates f;
  ri_sizes : In HNewDelete hs -> co_suppress_system o = false -> comes_before (HSystem "stddef.h") HNewDelete hs;
  ri_no_others : forall h, In h hs -> In h [HCxxH; HSystem "memory"; HSystem "string"; HSystem "stddef.h"; HNewDelete] }.

Lemma header_eqb_eq a b : header_eqb a b = true <-> a = b.
Proof. destruct a, b; cbn; split; try discriminate; try reflexivity; [rewrite String.eqb_eq; congruence|injection 1 as ->; apply String.eqb_refl]. Qed.
Lemma hinsert_in h x l : In x (hinsert h l) <-> x = h \/ In x l.
Proof.
  unfold hinsert. destruct (existsb (header_eqb h) l) eqn:E.
  - apply existsb_exists in E as (y & I & E). apply header_eqb_eq in E as ->. split; [auto|intros [->|H]; assumption].
  - rewrite in_app_iff. cbn. split; [intros [H|[H|[]]]; auto|intros [H|H]; auto].
Qed.
Definition uniq (l : list header) (s : list header) : list header := fold_left (fun s h => hinsert h s) l s.
Lemma uniq_in l : forall s x, In x (uniq l s) <-> In x s \/ In x l.
Proof.
  induction l as [|h l IH]; intros s x; cbn; [tauto|]. fold (uniq l (hinsert h s)). rewrite IH, hinsert_in. split; intros H; intuition (subst; auto).
Qed.
Lemma uniq_nodup l : forall s, NoDup s -> NoDup (uniq l s).
Proof.
  induction l as [|h l IH]; intros s N; cbn; [exact N|]. apply IH. unfold hinsert. destruct (existsb (header_eqb h) s) eqn:E; [exact N|].
  assert (K : ~ In h s). { intros I. assert (T : existsb (header_eqb h) s = true) by (apply existsb_exists; exists h; split; [exact I|apply header_eqb_eq; reflexivity]). congruence. }
  clear E IH. induction s as [|a s IH]; cbn; [constructor; [intros []|constructor]|]. inversion N; subst. constructor.
  - rewrite in_app_iff. cbn. intros [H|[H|[]]]; [contradiction|]. apply K. left. auto.
  - apply IH; [assumption|]. intros I. apply K. right. exact I.
Qed.
(** Every header preceded by another in the input comes after it. *)
Lemma uniq_keeps l : forall s, exists t, uniq l s = s ++ t.
Proof.
  induction l as [|h l IH]; intros s; cbn; [exists []; rewrite app_nil_r; reflexivity|]. destruct (IH (hinsert h s)) as [t E]. fold (uniq l (hinsert h s)). rewrite E.
  unfold hinsert. destruct (existsb (header_eqb h) s); [exists t; reflexivity|exists (h :: t); rewrite <- app_assoc; reflexivity].
Qed.
Lemma uniq_before a b l : forall s, a <> b -> (In b s -> In a s /\ comes_before a b s) ->
  (forall u v, l = u ++ b :: v -> In a u \/ In a s) -> In b (uniq l s) -> comes_before a b (uniq l s).
Proof.
  induction l as [|h l IH]; intros s D S P I; cbn in *; [apply S, I|]. fold (uniq l (hinsert h s)) in *.
  destruct (existsb (header_eqb h) s) eqn:E.
  - assert (HS : hinsert h s = s) by (unfold hinsert; rewrite E; reflexivity). rewrite HS in *. apply IH; try assumption.
    intros u v ->. destruct (P (h :: u) v eq_refl) as [[->|H]|H]; auto. right. apply existsb_exists in E as (y & IY & EY). apply header_eqb_eq in EY as ->. exact IY.
  - assert (HS : hinsert h s = s ++ [h]) by (unfold hinsert; rewrite E; reflexivity). rewrite HS in *. apply IH; try assumption.
    + intros IB. apply in_app_iff in IB as [IB|[->|[]]].
      * destruct (S IB) as (IA & u & v & w & ->). split; [apply in_app_iff; left; exact IA|]. exists u, v, (w ++ [h]). rewrite <- !app_assoc. cbn. rewrite <- !app_assoc. reflexivity.
      * destruct (P [] l eq_refl) as [[]|IA]. split; [apply in_app_iff; left; exact IA|]. apply in_split in IA as (u & v & ->). exists u, v, []. rewrite <- app_assoc. reflexivity.
    + intros u v ->. destruct (P (h :: u) v eq_refl) as [[->|H]|H]; [right; apply in_app_iff; right; left; reflexivity|left; exact H|right; apply in_app_iff; left; exact H].
Qed.

(** ** What the parts contribute *)
Section Parts.
Variable o : cpp_options.
Variable m : name_map.

Lemma inner_shape cf av d rd n def : generate_cpp_function_inner m cf av d rd n = COk def ->
  d_inline def = negb rd /\ (d_allocators def = true <-> allocates cf).
Proof.
  unfold generate_cpp_function_inner. intros H. apply cbind_ok in H as (ps & _ & H). apply cbind_ok in H as (rt & _ & H). apply cbind_ok in H as (es & _ & H).
  apply cbind_ok in H as ([call al] & U & H). apply cbind_ok in H as (b & _ & H). injection H as <-. split; [reflexivity|]. cbn [d_allocators].
  unfold underlying_call in U. unfold allocates. destruct (cf_payload cf); repeat match type of U with context [match ?x with _ => _ end] => destruct x end;
    try discriminate; injection U as <- <-; split; try discriminate; try (intros []); auto.
Qed.

Lemma fn_extra_inline d : d_inline d = true -> ex_def (fn_extra d) = None.
Proof. intros E. cbn. unfold show_def. rewrite E. reflexivity. Qed.
Lemma fn_extra_override c : d_inline (mc_override c) = false -> ex_def (fn_extra (mc_override c)) = Some (override_text c).
Proof. intros E. cbn. unfold show_def, override_text. rewrite E. reflexivity. Qed.

Lemma own_spec x e : own o m x = COk e ->
  exists t d, somes (map ex_type e) = somes [t] /\ type_text m x t /\ somes (map ex_decl e) = somes [d] /\ decl_text o m x d /\
    somes (map ex_def e) = [] /\ flat_map ex_cpp_headers e = [] /\ (e = [] -> t = None /\ d = None) /\
    flat_map ex_headers e =
      match x_kind x with
      | XStringConstructor => [HSystem "memory"; HSystem "string"; HCxxH]
      | XStruct _ (Some pa) => match pa_kind pa with Pod => [HCxxH] | _ => [] end
      | _ => match to_wrap x with
             | Some w => HSystem "memory" :: (match cf_payload w with CbAlloc _ | CbFree _ => [HSystem "stddef.h"; HNewDelete] | _ => [] end)
             | None => []
             end
      end.
Proof.
  unfold own, type_text, decl_text. destruct (x_kind x) as [| |cpp rs| |f pv fa| | | |sd [pa|]|q| | | | | | |] eqn:K;
    try (intros H; injection H as <-; unfold to_wrap; rewrite K; exists None, None; repeat split; fail).
  - intros H. apply cbind_ok in H as (t & R & H). injection H as <-. unfold to_wrap. rewrite K. eexists (Some _), None. split; [reflexivity|].
    split; [|repeat split; discriminate]. destruct rs; [exists t; split; [exact R|reflexivity]|injection R as <-; reflexivity].
  - intros H. injection H as <-. eexists None, (Some _). repeat split; discriminate.
  - destruct (to_wrap x) as [w|] eqn:W.
    + intros H. apply cbind_ok in H as (d & R & H). injection H as <-. exists None, (Some (fst (show_def d))). destruct (inner_shape w false RustCallsCpp false None d R) as [I A].
      split; [reflexivity|]. split; [reflexivity|]. split; [reflexivity|]. split; [exists d; split; [exact R|reflexivity]|].
      split; [unfold somes; cbn [map flat_map]; rewrite (fn_extra_inline _ I); reflexivity|]. split; [reflexivity|]. split; [discriminate|].
      cbn. unfold allocates in A. destruct (d_allocators d), (cf_payload w); cbn; try reflexivity; exfalso; destruct A as [A1 A2]; first [exact (A1 eq_refl)|discriminate (A2 Logic.I)].
    + intros H. injection H as <-. exists None, None. repeat split.
  - destruct pa as [pk ? ? ? ? ? ? ?]; cbn [pa_kind]. destruct pk; intros H; injection H as <-; try (exists None, None; repeat split; fail).
    eexists None, (Some _). repeat split; discriminate.
  - intros H. injection H as <-. unfold to_wrap. rewrite K. eexists (Some _), None. repeat split; discriminate.
Qed.

Lemma somes_app {A} (l l' : list (option A)) : somes (l ++ l') = somes l ++ somes l'.
Proof. apply flat_map_app. Qed.
Lemma flat_map_cat {A B C} (f : A -> list B) (g : C -> list A) l : flat_map f (flat_map g l) = flat_map (fun x => flat_map f (g x)) l.
Proof. induction l as [|x l IH]; cbn; [reflexivity|]. rewrite flat_map_app, IH. reflexivity. Qed.

Lemma method_spec sup p ds es : subclass_method m sup (fst p) (snd p) = COk (ds, es) ->
  exists c, method_written m sup p c /\ ds = in_class c /\
    es = undeclared (fn_extra (mc_override c)) :: map (fun s => undeclared (fn_extra s)) (match mc_super c with Some s => [s] | None => [] end) /\
    (forall d, In d (mc_override c :: match mc_super c with Some s => [s] | None => [] end) -> d_allocators d = true -> allocates (fst p)) /\
    (allocates (fst p) -> d_allocators (mc_override c) = true) /\
    d_inline (mc_override c) = false /\ (forall s, mc_super c = Some s -> d_inline s = true).
Proof.
  destruct p as [f pure]; cbn [fst snd]. unfold subclass_method. intros H. apply cbind_ok in H as (d & OV & H).
  destruct (inner_shape f true CppCallsRust true (Some (cf_original_name f)) d OV) as [IO AO]. destruct pure.
  - injection H as <- <-. exists (MC d None). unfold method_written, in_class. cbn. repeat split; try assumption; try discriminate.
    + intros d' [<-|[]]. apply AO.
    + apply AO.
  - apply cbind_ok in H as (s & SV & H). injection H as <- <-. exists (MC d (Some s)). unfold method_written, in_class. cbn [fst snd mc_override mc_super map].
    destruct (inner_shape _ true CppCallsCpp false None s SV) as [IS AS].
    split; [split; [exact OV|exists s; split; [reflexivity|exact SV]]|]. split; [reflexivity|]. split; [reflexivity|].
    split; [intros d' [<-|[<-|[]]]; [apply AO|intros E; apply AS in E; contradiction]|]. split; [apply AO|]. split; [exact IO|]. intros s' E. injection E as <-. exact IS.
Qed.

Definition bodies (c : class_code) : list cpp_def :=
  flat_map (fun k => mc_override k :: match mc_super k with Some s => [s] | None => [] end) (cc_methods c) ++ cc_ctors c.
Definition fn_headers (d : cpp_def) : list header := HSystem "memory" :: if d_allocators d then [HSystem "stddef.h"; HNewDelete] else [].

Lemma methods_spec sup ms : forall r, cmap (fun p => subclass_method m sup (fst p) (snd p)) ms = COk r ->
  exists cs, Forall2 (method_written m sup) ms cs /\ concat (map fst r) = flat_map in_class cs /\
    somes (map ex_type (concat (map snd r))) = [] /\ somes (map ex_decl (concat (map snd r))) = [] /\
    somes (map ex_def (concat (map snd r))) = map override_text cs /\ flat_map ex_cpp_headers (concat (map snd r)) = [] /\
    flat_map ex_headers (concat (map snd r)) =
      flat_map fn_headers (flat_map (fun k => mc_override k :: match mc_super k with Some s => [s] | None => [] end) cs) /\
    ((exists d, In d (flat_map (fun k => mc_override k :: match mc_super k with Some s => [s] | None => [] end) cs) /\ d_allocators d = true) <->
     exists f, In f (map fst ms) /\ allocates f).
Proof.
  induction ms as [|p ms IH]; intros r H.
  - cbn in H. injection H as <-. exists []. cbn. repeat split; try constructor; intros (? & [] & _).
  - cbn [cmap] in H. fold (cmap (fun p => subclass_method m sup (fst p) (snd p))) in H. apply cbind_ok in H as ([ds es] & M1 & H).
    apply cbind_ok in H as (r' & M2 & H). injection H as <-. apply method_spec in M1 as (c & W & -> & -> & A1 & A2 & IO & IS).
    destruct (IH r' M2) as (cs & F & E1 & E2 & E3 & E4 & E5 & E6 & E7). exists (c :: cs). cbn [map fst snd concat flat_map].
    rewrite !map_app, !somes_app, !flat_map_app, E1, E2, E3, E4, E5, E6.
    split; [constructor; assumption|]. split; [reflexivity|].
    assert (T : somes (map ex_type (undeclared (fn_extra (mc_override c)) :: map (fun s => undeclared (fn_extra s)) match mc_super c with Some s => [s] | None => [] end)) = [])
      by (destruct (mc_super c); reflexivity).
    assert (D : somes (map ex_decl (undeclared (fn_extra (mc_override c)) :: map (fun s => undeclared (fn_extra s)) match mc_super c with Some s => [s] | None => [] end)) = [])
      by (destruct (mc_super c); reflexivity).
    assert (X : somes (map ex_def (undeclared (fn_extra (mc_override c)) :: map (fun s => undeclared (fn_extra s)) match mc_super c with Some s => [s] | None => [] end)) = [override_text c]).
    { unfold undeclared. cbn [map ex_def]. rewrite (fn_extra_override c IO). destruct (mc_super c) as [s|]; [|reflexivity].
      cbn [map ex_def]. rewrite (fn_extra_inline s (IS s eq_refl)). reflexivity. }
    rewrite T, D, X. split; [reflexivity|]. split; [reflexivity|]. split; [reflexivity|]. split; [destruct (mc_super c); reflexivity|].
    split; [destruct (mc_super c); cbn; rewrite ?app_nil_r; reflexivity|].
    split.
    + intros (d & I & A). apply in_app_iff in I as [I|I]; [exists (fst p); split; [left; reflexivity|exact (A1 d I A)]|].
      destruct (proj1 E7 (ex_intro _ d (conj I A))) as (f & If & Af). exists f. split; [right; exact If|exact Af].
    + intros (f & [<-|If] & Af); [exists (mc_override c); split; [left; reflexivity|exact (A2 Af)]|].
      destruct (proj2 E7 (ex_intro _ f (conj If Af))) as (d & I & A). exists d. split; [apply in_app_iff; right; exact I|exact A].
Qed.

Lemma ctors_spec cs ds : Forall2 (fun f d => constructor_of m f = COk d) cs ds ->
  somes (map ex_type (map (fun d => undeclared (fn_extra d)) ds)) = [] /\ somes (map ex_decl (map (fun d => undeclared (fn_extra d)) ds)) = [] /\
  somes (map ex_def (map (fun d => undeclared (fn_extra d)) ds)) = [] /\ flat_map ex_cpp_headers (map (fun d => undeclared (fn_extra d)) ds) = [] /\
  flat_map ex_headers (map (fun d => undeclared (fn_extra d)) ds) = flat_map fn_headers ds /\
  ((exists d, In d ds /\ d_allocators d = true) <-> exists f, In f cs /\ allocates f).
Proof.
  induction 1 as [|f d cs ds C F (E1 & E2 & E3 & E4 & E5 & E6)]; [cbn; repeat split; try intros (? & [] & _)|].
  destruct (inner_shape f false CppCallsCpp false None d C) as [I A]. cbn [map flat_map]. unfold somes in *. cbn [flat_map]. rewrite E1, E2, E3, E4, E5.
  cbn [undeclared ex_type ex_decl ex_def ex_headers ex_cpp_headers]. rewrite (fn_extra_inline d I).
  repeat split.
  - intros (d' & [<-|I'] & A'); [exists f; split; [left; reflexivity|apply A, A']|].
    destruct (proj1 E6 (ex_intro _ d' (conj I' A'))) as (f' & If & Af). exists f'. split; [right; exact If|exact Af].
  - intros (f' & [<-|If] & Af); [exists d; split; [left; reflexivity|apply A, Af]|].
    destruct (proj2 E6 (ex_intro _ f' (conj If Af))) as (d' & I' & A'). exists d'. split; [right; exact I'|exact A'].
Qed.

Lemma class_spec l s e : class_of_sub m (constructors_for l) (methods_for l) s = COk e ->
  exists c, class_written m l s c /\ somes (map ex_type e) = [holder_text c; class_text c] /\ somes (map ex_decl e) = [cast_text c] /\
    somes (map ex_def e) = map override_text (cc_methods c) ++ [release_text c] /\ flat_map ex_cpp_headers e = [HCxxgenH] /\ e <> [] /\
    flat_map ex_headers e = flat_map fn_headers (bodies c) /\
    ((exists d, In d (bodies c) /\ d_allocators d = true) <->
     exists f, (In f (constructors_for l (fst s)) \/ In f (map fst (methods_for l (fst s)))) /\ allocates f).
Proof.
  destruct s as [sub sup]. unfold class_of_sub, generate_subclass_cpp. cbn [fst snd]. intros H.
  apply cbind_ok in H as (ms & M & H). apply cbind_ok in H as (ds & C & H). injection H as <-.
  destruct (methods_spec _ _ _ M) as (cs & F & E1 & E2 & E3 & E4 & E5 & E6 & E7). apply cmap_ok_inv in C.
  destruct (ctors_spec _ _ C) as (D1 & D2 & D3 & D4 & D5 & D6).
  exists (CC sub sup ds cs). split; [repeat split; cbn; assumption|]. cbn [cc_methods].
  cbn [app map flat_map]. rewrite !map_app. unfold somes in *. rewrite !flat_map_app. cbn [flat_map]. rewrite !flat_map_app. cbn [map flat_map].
  rewrite E2, E3, E4, E5, E6, E1, !map_app. rewrite !flat_map_app. cbn [map flat_map app]. rewrite D1, D2, D3, D4, D5.
  cbn [ex_type ex_decl ex_def ex_headers ex_cpp_headers class_extra unique_ptr_cast app].
  split; [reflexivity|]. split; [reflexivity|]. split; [rewrite ?app_nil_r; reflexivity|]. split; [reflexivity|]. split; [discriminate|].
  split; [unfold bodies; cbn [cc_methods cc_ctors]; rewrite flat_map_app, ?app_nil_r; reflexivity|]. unfold bodies. cbn [cc_methods cc_ctors]. split.
  - intros (d & I & A). apply in_app_iff in I as [I|I].
    + destruct (proj1 E7 (ex_intro _ d (conj I A))) as (f & If & Af). exists f. auto.
    + destruct (proj1 D6 (ex_intro _ d (conj I A))) as (f & If & Af). exists f. auto.
  - intros (f & [If|If] & Af).
    + destruct (proj2 D6 (ex_intro _ f (conj If Af))) as (d & I & A). exists d. split; [apply in_app_iff; right; exact I|exact A].
    + destruct (proj2 E7 (ex_intro _ f (conj If Af))) as (d & I & A). exists d. split; [apply in_app_iff; left; exact I|exact A].
Qed.
End Parts.

(** ** The files *)
Section Files.
Variable o : cpp_options.

Definition x_headers (x : xapi) : list header :=
  match x_kind x with
  | XStringConstructor => [HSystem "memory"; HSystem "string"; HCxxH]
  | XStruct _ (Some pa) => match pa_kind pa with Pod => [HCxxH] | _ => [] end
  | _ => match to_wrap x with
         | Some w => HSystem "memory" :: (match cf_payload w with CbAlloc _ | CbFree _ => [HSystem "stddef.h"; HNewDelete] | _ => [] end)
         | None => []
         end
  end.
Lemma own_all m l : forall e, cmap (own o m) l = COk e ->
  exists ts ds, Forall2 (type_text m) l ts /\ Forall2 (decl_text o m) l ds /\
    somes (map ex_type (concat e)) = somes ts /\ somes (map ex_decl (concat e)) = somes ds /\ somes (map ex_def (concat e)) = [] /\
    flat_map ex_cpp_headers (concat e) = [] /\ flat_map ex_headers (concat e) = flat_map x_headers l.
Proof.
  induction l as [|x l IH]; intros e H; cbn [cmap] in H; fold (cmap (own o m)) in H.
  - injection H as <-. exists [], []. repeat split; constructor.
  - apply cbind_ok in H as (e1 & O & H). apply cbind_ok in H as (es & C & H). injection H as <-.
    apply own_spec in O as (t & d & T & TT & D & DT & X & CH & _ & H). destruct (IH es C) as (ts & ds & FT & FD & E1 & E2 & E3 & E4 & E5).
    exists (t :: ts), (d :: ds). split; [constructor; assumption|]. split; [constructor; assumption|]. cbn [concat].
    rewrite !map_app, !somes_app, !flat_map_app, E1, E2, E3, E4, E5, T, D, X, CH, H. unfold somes. cbn [flat_map]. rewrite !app_nil_r.
    repeat split.
Qed.
Lemma class_all m l s : forall e, cmap (class_of_sub m (constructors_for l) (methods_for l)) s = COk e ->
  exists cs, Forall2 (class_written m l) s cs /\
    somes (map ex_type (concat e)) = flat_map (fun c => [holder_text c; class_text c]) cs /\ somes (map ex_decl (concat e)) = map cast_text cs /\
    somes (map ex_def (concat e)) = flat_map (fun c => map override_text (cc_methods c) ++ [release_text c]) cs /\
    flat_map ex_cpp_headers (concat e) = map (fun _ => HCxxgenH) s /\
    flat_map ex_headers (concat e) = flat_map fn_headers (flat_map bodies cs) /\
    ((exists d, In d (flat_map bodies cs) /\ d_allocators d = true) <->
     exists f q, In q s /\ (In f (constructors_for l (fst q)) \/ In f (map fst (methods_for l (fst q)))) /\ allocates f) /\
    ((exists d, In d (flat_map bodies cs)) <->
     exists f q, In q s /\ (In f (constructors_for l (fst q)) \/ In f (map fst (methods_for l (fst q))))) /\
    (s <> [] -> concat e <> []).
Proof.
  induction s as [|q s IH]; intros e H; cbn [cmap] in H; fold (cmap (class_of_sub m (constructors_for l) (methods_for l))) in H.
  - injection H as <-. exists []. repeat split; try constructor; try (intros (? & []); contradiction); try (intros (? & ? & [] & _)); try (intros (? & [] & _)).
    intros N E. apply N. reflexivity.
  - apply cbind_ok in H as (e1 & C1 & H). apply cbind_ok in H as (es & C2 & H). injection H as <-.
    apply class_spec in C1 as (c & W & T & D & X & CH & NE & HH & AL). destruct (IH es C2) as (cs & F & E1 & E2 & E3 & E4 & E5 & E6 & E7 & _).
    exists (c :: cs). split; [constructor; assumption|]. cbn [concat map flat_map].
    rewrite !map_app, !somes_app, !flat_map_app, E1, E2, E3, E4, E5, T, D, X, CH, HH.
    split; [reflexivity|]. split; [reflexivity|]. split; [reflexivity|]. split; [reflexivity|]. split; [reflexivity|]. split; [|split].
    + split.
      * intros (d & I & A). apply in_app_iff in I as [I|I].
        -- destruct (proj1 AL (ex_intro _ d (conj I A))) as (f & If & Af). exists f, q. split; [left; reflexivity|auto].
        -- destruct (proj1 E6 (ex_intro _ d (conj I A))) as (f & q' & Iq & If & Af). exists f, q'. split; [right; exact Iq|auto].
      * intros (f & q' & [<-|Iq] & If & Af).
        -- destruct (proj2 AL (ex_intro _ f (conj If Af))) as (d & I & A). exists d. split; [apply in_app_iff; left; exact I|exact A].
        -- destruct (proj2 E6) as (d & I & A); [exists f, q'; auto|]. exists d. split; [apply in_app_iff; right; exact I|exact A].
    + assert (B : (exists d, In d (bodies c)) <-> exists f, In f (constructors_for l (fst q)) \/ In f (map fst (methods_for l (fst q)))).
      { destruct W as (_ & _ & W1 & W2). unfold bodies. split.
        - intros (d & I). apply in_app_iff in I as [I|I].
          + inversion W2 as [|p k ps ks]; subst; [match goal with E : [] = cc_methods c |- _ => rewrite <- E in I end; destruct I|].
            exists (fst p). right. left. reflexivity.
          + inversion W1 as [|p k ps ks]; subst; [match goal with E : [] = cc_ctors c |- _ => rewrite <- E in I end; destruct I|].
            exists p. left. left. reflexivity.
        - intros (f & [If|If]).
          + inversion W1 as [E0 E1'|p k ps ks ? ? E0 E1']; subst; [rewrite <- E0 in If; destruct If|]. exists k. apply in_app_iff. right. left. reflexivity.
          + inversion W2 as [E0 E1'|p k ps ks ? ? E0 E1']; subst; [rewrite <- E0 in If; destruct If|]. exists (mc_override k). apply in_app_iff. left. left. reflexivity. }
      split.
      * intros (d & I). apply in_app_iff in I as [I|I].
        -- destruct (proj1 B (ex_intro _ d I)) as (f & If). exists f, q. split; [left; reflexivity|exact If].
        -- destruct (proj1 E7 (ex_intro _ d I)) as (f & q' & Iq & If). exists f, q'. split; [right; exact Iq|exact If].
      * intros (f & q' & [<-|Iq] & If).
        -- destruct (proj2 B (ex_intro _ f If)) as (d & I). exists d. apply in_app_iff. left. exact I.
        -- destruct (proj2 E7) as (d & I); [exists f, q'; auto|]. exists d. apply in_app_iff. right. exact I.
    + intros _ E. destruct e1; [apply NE; reflexivity|discriminate].
Qed.

Lemma fn_headers_in ds h : In h (flat_map fn_headers ds) <->
  (h = HSystem "memory" /\ exists d, In d ds) \/ ((h = HSystem "stddef.h" \/ h = HNewDelete) /\ exists d, In d ds /\ d_allocators d = true).
Proof.
  rewrite in_flat_map. unfold fn_headers. split.
  - intros (d & I & [<-|H]); [left; eauto|]. destruct (d_allocators d) eqn:A; [|destruct H]. right. destruct H as [<-|[<-|[]]]; eauto.
  - intros [(-> & d & I)|([->| ->] & d & I & A)]; exists d; (split; [exact I|]); [left; reflexivity|right; rewrite A; left; reflexivity|right; rewrite A; right; left; reflexivity].
Qed.
Lemma x_headers_in l h : In h (flat_map x_headers l) <->
  (h = HCxxH /\ (makes_string l \/ has_pod l)) \/ (h = HSystem "string" /\ makes_string l) \/
  (h = HSystem "memory" /\ (makes_string l \/ exists x f, In x l /\ to_wrap x = Some f)) \/
  ((h = HSystem "stddef.h" \/ h = HNewDelete) /\ exists x f, In x l /\ to_wrap x = Some f /\ allocates f).
Proof.
  rewrite in_flat_map. unfold makes_string, has_pod. split.
  - intros (x & I & H). unfold x_headers in H. destruct (x_kind x) as [| | | |f pv fa| | | |sd [pa|]| | | | | | | |] eqn:K;
      try (unfold to_wrap in H; rewrite K in H; destruct H; fail).
    + destruct H as [<-|[<-|[<-|[]]]]; [right; right; left|right; left|left]; eauto 8.
    + destruct (to_wrap x) as [w|] eqn:W; [|destruct H]. destruct H as [<-|H]; [right; right; left; eauto 8|].
      right. right. right. unfold allocates. destruct (cf_payload w) eqn:P; try destruct H; try subst h;
        try (match goal with H : In _ _ |- _ => destruct H as [<-|[]] end); (split; [auto|]); exists x, w; rewrite P; auto.
    + destruct (pa_kind pa) eqn:P; try destruct H. left. subst h. split; [reflexivity|]. right. exists x, sd, pa. auto.
      contradiction.
  - assert (WK : forall x f, to_wrap x = Some f -> x_headers x = HSystem "memory" :: (match cf_payload f with CbAlloc _ | CbFree _ => [HSystem "stddef.h"; HNewDelete] | _ => [] end)).
    { intros x f W. unfold x_headers. rewrite W. unfold to_wrap in W. destruct (x_kind x); try discriminate. reflexivity. }
    assert (SK : forall x, x_kind x = XStringConstructor -> x_headers x = [HSystem "memory"; HSystem "string"; HCxxH]) by (intros x K; unfold x_headers; rewrite K; reflexivity).
    intros [(-> & [(x & I & K)|(x & sd & pa & I & K & P)])|[(-> & x & I & K)|[(-> & [(x & I & K)|(x & f & I & W)])|(D & x & f & I & W & A)]]]; exists x; (split; [exact I|]).
    + rewrite (SK x K). cbn. auto.
    + unfold x_headers. rewrite K, P. left. reflexivity.
    + rewrite (SK x K). cbn. auto.
    + rewrite (SK x K). cbn. auto.
    + rewrite (WK x f W). left. reflexivity.
    + rewrite (WK x f W). right. unfold allocates in A. destruct (cf_payload f); try contradiction; (destruct D as [->| ->]; [left; reflexivity|right; left; reflexivity]).
Qed.

(** [#include <stddef.h>] is asked for before the prelude. *)
Definition adjacent (hs : list header) : Prop := forall u v, hs = u ++ HNewDelete :: v -> In (HSystem "stddef.h") u.
Lemma adjacent_app a b : adjacent a -> adjacent b -> adjacent (a ++ b).
Proof.
  intros A B u v E.
  assert (S : forall (a b u v : list header) x, a ++ b = u ++ x :: v -> (exists w, a = u ++ x :: w) \/ (exists w, b = w ++ x :: v /\ u = a ++ w)).
  { clear. induction a as [|y a IH]; intros b u v x E; [right; exists u; auto|]. destruct u as [|z u]; cbn in E; injection E as -> E; [left; exists a; reflexivity|].
    destruct (IH _ _ _ _ E) as [[w ->]|(w & -> & ->)]; [left; exists w; reflexivity|right; exists w; auto]. }
  destruct (S _ _ _ _ _ E) as [[w ->]|(w & -> & ->)]; [apply (A u w eq_refl)|apply in_app_iff; right; apply (B w v eq_refl)].
Qed.
Lemma adjacent_flat {A} (f : A -> list header) l : (forall x, adjacent (f x)) -> adjacent (flat_map f l).
Proof. intros H. induction l; cbn; [intros [|? ?] ? E; discriminate|apply adjacent_app; auto]. Qed.
Lemma adjacent_filter p hs : (forall h, p h = false -> h <> HSystem "stddef.h") -> adjacent hs -> adjacent (filter p hs).
Proof.
  intros P. revert hs. assert (G : forall hs pre, (In (HSystem "stddef.h") pre \/ adjacent hs) -> forall u v, filter p hs = u ++ HNewDelete :: v -> In (HSystem "stddef.h") (pre ++ u)).
  { induction hs as [|h hs IH]; intros pre H u v E; [destruct u; discriminate|]. cbn in E.
    assert (H' : In (HSystem "stddef.h") (pre ++ [h]) \/ adjacent hs).
    { destruct H as [H|H]; [left; apply in_app_iff; left; exact H|]. destruct h as [n| | |].
      - destruct (string_dec n "stddef.h") as [->|N]; [left; apply in_app_iff; right; left; reflexivity|].
        right. intros u' v' ->. destruct (H (HSystem n :: u') v' eq_refl) as [Q|Q]; [congruence|exact Q].
      - right. intros u' v' ->. destruct (H (HCxxH :: u') v' eq_refl) as [Q|Q]; [discriminate|exact Q].
      - right. intros u' v' ->. destruct (H (HCxxgenH :: u') v' eq_refl) as [Q|Q]; [discriminate|exact Q].
      - destruct (H [] hs eq_refl). }
    destruct (p h) eqn:Ph.
    - destruct u as [|y u]; cbn in E; injection E as -> E.
      + destruct H as [H|H]; [apply in_app_iff; left; exact H|destruct (H [] hs eq_refl)].
      + specialize (IH (pre ++ [y]) H' u v E). rewrite <- app_assoc in IH. exact IH.
    - specialize (IH (pre ++ [h]) H' u v E). apply in_app_iff in IH as [IH|IH]; [|apply in_app_iff; right; exact IH].
      apply in_app_iff in IH as [IH|[IH|[]]]; [apply in_app_iff; left; exact IH|]. destruct (P h Ph IH). }
  intros hs A u v E. exact (G hs [] (or_intror A) u v E).
Qed.

Lemma includes_right l cs ex :
  flat_map ex_headers ex = flat_map x_headers l ++ flat_map fn_headers (flat_map bodies cs) ->
  ((exists d, In d (flat_map bodies cs) /\ d_allocators d = true) <->
     exists f q, In q (subclasses l) /\ (In f (constructors_for l (fst q)) \/ In f (map fst (methods_for l (fst q)))) /\ allocates f) ->
  ((exists d, In d (flat_map bodies cs)) <->
     exists f q, In q (subclasses l) /\ (In f (constructors_for l (fst q)) \/ In f (map fst (methods_for l (fst q))))) ->
  exists hs, right_includes o l hs /\ collect_headers o ex_headers ex = map (include_stmt o) hs.
Proof.
  intros E A B. unfold collect_headers. rewrite E. set (all := flat_map x_headers l ++ flat_map fn_headers (flat_map bodies cs)).
  set (p := fun h => negb (co_suppress_system o) || negb (is_system h)). exists (uniq (filter p all) []). split; [|reflexivity].
  assert (IN : forall h, In h (uniq (filter p all) []) <-> In h all /\ p h = true).
  { intros h. rewrite uniq_in, filter_In. cbn. tauto. }
  assert (ALL : forall h, In h all <-> (h = HCxxH /\ (makes_string l \/ has_pod l)) \/ (h = HSystem "string" /\ makes_string l) \/
     (h = HSystem "memory" /\ (makes_string l \/ exists f, has_code l f)) \/
     ((h = HSystem "stddef.h" \/ h = HNewDelete) /\ exists f, has_code l f /\ allocates f)).
  { intros h. unfold all. rewrite in_app_iff, x_headers_in, fn_headers_in, A, B. unfold has_code. split.
    - intros [[H|[H|[[-> [H|(x & f & I & W)]]|(D & x & f & I & W & AF)]]]|[(-> & f & q & Iq & If)|(D & f & q & Iq & If & AF)]]; auto 10.
      + right. right. left. split; [reflexivity|]. right. exists f. left. exists x. auto.
      + right. right. right. split; [exact D|]. exists f. split; [left; exists x; auto|exact AF].
      + right. right. left. split; [reflexivity|]. right. exists f. right. exists q. auto.
      + right. right. right. split; [exact D|]. exists f. split; [right; exists q; auto|exact AF].
    - intros [H|[H|[[-> [H|(f & [(x & I & W)|(q & Iq & If)])]]|(D & f & [(x & I & W)|(q & Iq & If)] & AF)]]]; auto 10.
      + left. right. right. left. split; [reflexivity|]. right. exists x, f. auto.
      + right. left. split; [reflexivity|]. exists f, q. auto.
      + left. right. right. right. split; [exact D|]. exists x, f. auto.
      + right. right. split; [exact D|]. exists f, q. auto. }
  assert (SYS : forall h, is_system h = true -> p h = true <-> co_suppress_system o = false).
  { intros h S. unfold p. rewrite S. destruct (co_suppress_system o); cbn; intuition congruence. }
  constructor.
  - apply uniq_nodup. constructor.
  - rewrite IN, ALL, (SYS HCxxH eq_refl). intuition (congruence || auto).
  - rewrite IN, ALL, (SYS (HSystem "memory") eq_refl). intuition (congruence || auto).
  - rewrite IN, ALL, (SYS (HSystem "string") eq_refl). intuition (congruence || auto).
  - rewrite IN, ALL. assert (P : p HNewDelete = true) by (unfold p; cbn; apply orb_true_r). rewrite P. intuition (congruence || auto).
  - intros I S. apply uniq_before; [discriminate|intros []| |exact I]. intros u v EQ. left.
    assert (AD : adjacent (filter p all)); [|exact (AD u v EQ)].
    apply adjacent_filter. { intros h F. intros ->. rewrite (proj2 (SYS (HSystem "stddef.h") eq_refl) S) in F. discriminate. }
    apply adjacent_app; apply adjacent_flat; intros x.
    + unfold x_headers. assert (Z : forall hs, ~ In HNewDelete hs -> adjacent hs) by (intros hs N u' v' ->; destruct N; apply in_app_iff; right; left; reflexivity).
      assert (Z2 : adjacent [HSystem "memory"; HSystem "stddef.h"; HNewDelete]).
      { intros u' v' EQ'. destruct u' as [|a [|b u']]; try discriminate EQ'. injection EQ' as <- <- _. cbn. auto. }
      destruct (x_kind x) as [| | | |f pv fa| | | |sd [pa|]| | | | | | | |]; try (apply Z; cbn; intuition discriminate);
        try (destruct (pa_kind pa); apply Z; cbn; intuition discriminate);
        (destruct (to_wrap x) as [w|]; [|apply Z; intros []]); destruct (cf_payload w); try exact Z2; apply Z; cbn; intuition discriminate.
    + unfold fn_headers. destruct (d_allocators x); intros u' v' EQ'.
      * destruct u' as [|a [|b u']]; try discriminate EQ'. injection EQ' as <- <- _. cbn. auto.
      * destruct u' as [|a [|b u']]; discriminate EQ'.
  - intros h I. apply IN in I as [I _]. apply ALL in I. cbn. intuition (subst; auto).
Qed.

(** What was parsed and analysed decides what is in the two files. *)
Lemma files_of l ex : NoDup (map xname l) -> add_needs o (names_of_apis l) (filter needs_cpp_codegen l) = COk ex ->
  exists ts ds cs, Forall2 (type_text (names_of_apis l)) l ts /\ Forall2 (decl_text o (names_of_apis l)) l ds /\
    Forall2 (class_written (names_of_apis l) l) (subclasses l) cs /\
    somes (map ex_type ex) = somes ts ++ flat_map (fun c => [holder_text c; class_text c]) cs /\
    somes (map ex_decl ex) = somes ds ++ map cast_text cs /\
    somes (map ex_def ex) = flat_map (fun c => map override_text (cc_methods c) ++ [release_text c]) cs /\
    flat_map ex_cpp_headers ex = map (fun _ => HCxxgenH) (subclasses l) /\
    (exists hs, right_includes o l hs /\ collect_headers o ex_headers ex = map (include_stmt o) hs).
Proof.
  intros ND H. apply (add_needs_spec o _ l ex ND) in H as (e & c & O & C & ->).
  destruct (own_all _ _ _ O) as (ts & ds & FT & FD & E1 & E2 & E3 & E4 & E5). destruct (class_all _ _ _ _ C) as (cs & F & D1 & D2 & D3 & D4 & D5 & D6 & D7 & _).
  exists ts, ds, cs. split; [exact FT|]. split; [exact FD|]. split; [exact F|]. rewrite !map_app, !somes_app, !flat_map_app, E1, E2, E3, E4, D1, D2, D3, D4.
  repeat split. apply (includes_right l cs); [|exact D6|exact D7]. rewrite flat_map_app, E5, D5. reflexivity.
Qed.
End Files.

(** ** C86 *)
Definition header_text (o : cpp_options) (inclusions : string) (hs : list header) (types decls : list string) : string :=
  "// Generated using autocxx - do not edit directly." +++ nl +++ "// @generated." +++ nl +++ nl +++ nl +++
  "#ifndef __AUTOCXXGEN_H__" +++ nl +++ "#define __AUTOCXXGEN_H__" +++ nl +++ nl +++ join nl (map (include_stmt o) hs) +++ nl +++ inclusions +++ nl +++
  (join nl types +++ nl) +++ nl +++ (join nl decls +++ nl) +++ "#endif // __AUTOCXXGEN_H__" +++ nl.
Definition source_text (o : cpp_options) (defs : list string) : string :=
  "// Generated using autocxx - do not edit directly." +++ nl +++ "// @generated." +++ nl +++ nl +++ nl +++
  "#include " +++ quoted (co_header_name o) +++ nl +++ include_stmt o HCxxgenH +++ nl +++ join nl defs +++ nl.

(** The header has the right includes, each once, then the user's; then one type for each API that needs one, and for each subclass its holder
    and directly after it the class, which has it as a member; and then one declaration for each API that needs one. *)
Theorem c86_header o inclusions l p : NoDup (map xname l) -> generate_cpp_code o inclusions l = COk (Some p) ->
  exists hs ts ds cs, right_includes o l hs /\
    Forall2 (type_text (names_of_apis l)) l ts /\ Forall2 (decl_text o (names_of_apis l)) l ds /\
    Forall2 (class_written (names_of_apis l) l) (subclasses l) cs /\
    fp_header p = header_text o inclusions hs (somes ts ++ flat_map (fun c => [holder_text c; class_text c]) cs) (somes ds ++ map cast_text cs) /\
    fp_name p = co_header_name o.
Proof.
  intros ND H. unfold generate_cpp_code in H. apply cbind_ok in H as (ex & A & H). injection H as H.
  destruct (files_of o l ex ND A) as (ts & ds & cs & FT & FD & FC & E1 & E2 & _ & _ & hs & RI & EH).
  exists hs, ts, ds, cs. split; [exact RI|]. split; [exact FT|]. split; [exact FD|]. split; [exact FC|].
  unfold generate_files in H. destruct ex as [|e ex]; [discriminate|]. injection H as <-. cbn [fp_header fp_name]. split; [|reflexivity].
  unfold concat_items. rewrite E1, E2, EH. unfold header_text. reflexivity.
Qed.
Print Assumptions c86_header.

(** The source file exists if there is a subclass, and then defines each overriding method once, where it can see both headers. *)
Theorem c86_source o inclusions l p : NoDup (map xname l) -> generate_cpp_code o inclusions l = COk (Some p) ->
  exists cs, Forall2 (class_written (names_of_apis l) l) (subclasses l) cs /\
    match subclasses l with
    | [] => fp_impl p = None
    | _ => fp_impl p = Some (source_text o (flat_map (fun c => map override_text (cc_methods c) ++ [release_text c]) cs))
    end.
Proof.
  intros ND H. unfold generate_cpp_code in H. apply cbind_ok in H as (ex & A & H). injection H as H.
  destruct (files_of o l ex ND A) as (ts & ds & cs & _ & _ & FC & _ & _ & E3 & E4 & _). exists cs. split; [exact FC|].
  unfold generate_files in H. destruct ex as [|e0 ex0]; [discriminate|]. remember (e0 :: ex0) as ex eqn:EX. injection H as <-. cbn [fp_impl].
  unfold concat_items. rewrite E3. inversion FC as [E5 E6|s c ss cs' W F E5 E6].
  - reflexivity.
  - cbn [flat_map]. destruct ((map override_text (cc_methods c) ++ [release_text c]) ++ flat_map (fun c => map override_text (cc_methods c) ++ [release_text c]) cs') as [|t ts'] eqn:N.
    { destruct (map override_text (cc_methods c)); discriminate. }
    rewrite <- N. unfold source_text.
    assert (K : join nl (collect_headers o ex_cpp_headers ex) = include_stmt o HCxxgenH); [|rewrite K; reflexivity].
    unfold collect_headers. rewrite E4, <- E5. cbn [map filter is_system negb]. rewrite orb_true_r.
    assert (U : forall n k, k = [HCxxgenH] -> uniq (filter (fun h => negb (co_suppress_system o) || negb (is_system h)) (map (fun _ : qname * qname => HCxxgenH) n)) k = [HCxxgenH]).
    { induction n as [|a n IH]; intros k ->; cbn; [reflexivity|]. rewrite orb_true_r. cbn. apply IH. reflexivity. }
    cbn [fold_left]. change (hinsert HCxxgenH []) with [HCxxgenH]. fold (uniq (filter (fun h => negb (co_suppress_system o) || negb (is_system h)) (map (fun _ => HCxxgenH) ss)) [HCxxgenH]).
    rewrite (U ss _ eq_refl). reflexivity.
Qed.
Print Assumptions c86_source.

Lemma cmap_all {A B} (f : A -> conv B) l : (exists r, cmap f l = COk r) <-> forall a, In a l -> exists b, f a = COk b.
Proof.
  induction l as [|a l IH]; cbn [cmap]; [split; [intros _ ? []|eauto]|]. fold (cmap f). split.
  - intros (r & H) x. apply cbind_ok in H as (b & E & H). apply cbind_ok in H as (bs & E' & _). intros [<-|I]; [eauto|]. apply IH; eauto.
  - intros H. destruct (H a (or_introl eq_refl)) as [b E]. destruct (proj2 IH) as [bs E']; [intros; apply H; right; assumption|]. exists (b :: bs). rewrite E, E'. reflexivity.
Qed.

(** Code generation succeeds exactly if each function can be written and each type spelled: no API is passed to it which it
    does not expect. *)
Theorem c86_total o inclusions l : NoDup (map xname l) ->
  let m := names_of_apis l in
  (exists p, generate_cpp_code o inclusions l = COk p) <->
  ((forall x w, In x l -> to_wrap x = Some w -> exists d, generate_cpp_function m w = COk d) /\
   (forall x cpp rs, In x l -> x_kind x = XConcrete cpp (Some rs) -> exists s, type_to_cpp m rs = COk s) /\
   (forall s f, In s (subclasses l) -> In f (constructors_for l (fst s)) -> exists d, constructor_of m f = COk d) /\
   (forall s f, In s (subclasses l) -> In f (methods_for l (fst s)) -> exists c, method_written m (snd s) f c)).
Proof.
  intros ND m. transitivity (exists ex, add_needs o m (filter needs_cpp_codegen l) = COk ex).
  { unfold generate_cpp_code. fold m. split; [intros (p & H); apply cbind_ok in H as (ex & A & _); eauto|intros (ex & A); rewrite A; cbn; eauto]. }
  transitivity ((forall x, In x l -> exists e, own o m x = COk e) /\ (forall s, In s (subclasses l) -> exists e, class_of_sub m (constructors_for l) (methods_for l) s = COk e)).
  { rewrite <- !cmap_all. split.
    - intros (ex & A). apply (add_needs_spec o m l ex ND) in A as (e & c & O & C & _). eauto.
    - intros ((e & O) & (c & C)). exists (concat e ++ concat c). apply (add_needs_spec o m l _ ND). eauto 6. }
  split.
  - intros [O C]. split; [|split; [|split]].
    + intros x w I W. destruct (O x I) as [e E]. unfold own in E. rewrite W in E. unfold to_wrap in W. destruct (x_kind x); try discriminate.
      apply cbind_ok in E as (d & E & _). eauto.
    + intros x cpp rs I K. destruct (O x I) as [e E]. unfold own in E. rewrite K in E. apply cbind_ok in E as (d & E & _). eauto.
    + intros s f I If. destruct (C s I) as [e E]. unfold class_of_sub, generate_subclass_cpp in E. apply cbind_ok in E as (ms & _ & E).
      apply cbind_ok in E as (ds & E & _). apply (proj1 (cmap_all _ _) (ex_intro _ ds E) f If).
    + intros s f I If. destruct (C s I) as [e E]. unfold class_of_sub, generate_subclass_cpp in E. apply cbind_ok in E as (ms & E & _).
      destruct (proj1 (cmap_all _ _) (ex_intro _ ms E) f If) as [[ds es] M]. apply method_spec in M as (c & W & _). eauto.
  - intros (W & T & C & M). split.
    + intros x I. unfold own. destruct (x_kind x) as [| |cpp rs| |f pv fa| | | |sd [pa|]|q| | | | | | |] eqn:K; eauto.
      * destruct rs as [rs|]; [destruct (T x cpp rs I K) as [s E]; rewrite E|]; cbn; eauto.
      * destruct (to_wrap x) as [w|] eqn:EW; [destruct (W x w I EW) as [d E]; rewrite E; cbn|]; eauto.
      * destruct (pa_kind pa); eauto.
    + intros s I. unfold class_of_sub, generate_subclass_cpp.
      destruct (proj2 (cmap_all (fun p => subclass_method m (snd s) (fst p) (snd p)) (methods_for l (fst s)))) as [ms EM].
      { intros p Ip. destruct (M s p I Ip) as (c & OV & S). unfold subclass_method. rewrite OV. cbn. destruct (snd p); [eauto|].
        destruct S as (d & _ & S). unfold super_fn_name. cbn [qn_item]. rewrite S. cbn. eauto. }
      destruct (proj2 (cmap_all (constructor_of m) (constructors_for l (fst s)))) as [ds ED]; [intros f If; exact (C s f I If)|].
      rewrite EM. cbn [cbind]. rewrite ED. cbn. eauto.
Qed.
Print Assumptions c86_total.

Lemma cmap_nil {A B} (f : A -> conv (list B)) l : forall e, cmap f l = COk e -> concat e = [] <-> forall x, In x l -> f x = COk [].
Proof.
  induction l as [|x l IH]; intros e O; cbn [cmap] in O.
  - injection O as <-. split; [intros _ ? []|reflexivity].
  - fold (cmap f) in O. apply cbind_ok in O as (a & E & O). apply cbind_ok in O as (b & E' & O). injection O as <-.
    specialize (IH b E'). cbn [concat]. split.
    + intros Z. apply app_eq_nil in Z as [-> Z]. intros z [<-|I]; [exact E|]. apply IH; assumption.
    + intros Z. rewrite (proj2 IH) by (intros z I; apply Z; right; exact I). specialize (Z x (or_introl eq_refl)). rewrite app_nil_r. congruence.
Qed.

(** No C++ is generated only if the overrides, which are written with their subclass, are all that would need some. *)
Theorem c86_nothing o inclusions l : NoDup (map xname l) -> forall p, generate_cpp_code o inclusions l = COk p ->
  p = None <-> forall x, In x l -> needs_cpp_codegen x = true -> exists sub d, x_kind x = XRustSubclassFn sub d.
Proof.
  intros ND p H. unfold generate_cpp_code in H. apply cbind_ok in H as (ex & A & H). injection H as <-.
  apply (add_needs_spec o _ l ex ND) in A as (e & c & O & C & ->).
  assert (G : generate_files o inclusions (concat e ++ concat c) = None <-> concat e ++ concat c = []).
  { unfold generate_files. destruct (concat e ++ concat c); split; try reflexivity; discriminate. }
  rewrite G. clear G. destruct (class_all _ _ _ _ C) as (cs & _ & _ & _ & _ & _ & _ & _ & _ & NE).
  assert (OE : concat e = [] <-> forall x, In x l -> own o (names_of_apis l) x = COk []).
  { apply cmap_nil. exact O. }
  split.
  - intros Z x I N. apply app_eq_nil in Z as [Z1 Z2].
    assert (S : subclasses l = []). { destruct (subclasses l) as [|s ss] eqn:E; [reflexivity|]. destruct (NE ltac:(discriminate) Z2). }
    specialize (proj1 OE Z1 x I) as OX. unfold own in OX. unfold needs_cpp_codegen in N.
    destruct (x_kind x) as [| |cpp rs| |f pv [fa|]| | | |sd [pa|]|q| | | |sub d|sup| |] eqn:K; try discriminate; eauto.
    + apply cbind_ok in OX as (? & _ & OX). discriminate.
    + unfold to_wrap in OX. rewrite K in OX. destruct (fa_wrapper fa) as [w|]; [|discriminate]. destruct (fa_ignore fa); [discriminate|]. destruct (fa_external fa); [|discriminate].
      apply cbind_ok in OX as (? & _ & OX). discriminate.
    + destruct (pa_kind pa); discriminate.
    + exfalso. assert (IS : In (xname x, sup) (subclasses l)) by (unfold subclasses; apply in_flat_map; exists x; rewrite K; split; [exact I|left; reflexivity]). rewrite S in IS. destruct IS.
  - intros N.
    assert (S : subclasses l = []).
    { destruct (subclasses l) as [|s ss] eqn:E; [reflexivity|]. exfalso. assert (IS : In s (subclasses l)) by (rewrite E; left; reflexivity).
      unfold subclasses in IS. apply in_flat_map in IS as (x & I & IS). destruct (x_kind x) eqn:K; try destruct IS.
      destruct (N x I) as (sub & d & K'); [unfold needs_cpp_codegen; rewrite K; reflexivity|congruence]. contradiction. }
    rewrite (proj2 OE); [rewrite S in C; cbn in C; injection C as <-; reflexivity|].
    intros x I. destruct (needs_cpp_codegen x) eqn:NX; [|apply own_unneeded; exact NX]. destruct (N x I NX) as (sub & d & K). unfold own. rewrite K. reflexivity.
Qed.
Print Assumptions c86_nothing.

(** The bridge includes the header exactly if there is one, and generating it does not fail on a missing one, provided that each
    override's subclass is there. *)
Theorem c86_bridge_partial o inclusions includes l p : NoDup (map xname l) -> generate_cpp_code o inclusions l = COk p ->
  (forall x sub d, In x l -> x_kind x = XRustSubclassFn sub d -> exists y sup, In y l /\ xname y = sub /\ x_kind y = XSubclass sup) ->
  codegen o inclusions includes l = COk (p, includes ++ match p with Some f => [fp_name f] | None => [] end).
Proof.
  intros ND G S. pose proof (c86_nothing o inclusions l ND p G) as N. unfold codegen. rewrite G. cbn [cbind]. unfold bridge_includes.
  destruct (existsb needs_cpp_codegen l) eqn:E.
  - destruct p as [f|]; [reflexivity|]. exfalso. apply existsb_exists in E as (x & I & NX). destruct (proj1 N eq_refl x I NX) as (sub & d & K).
    destruct (S x sub d I K) as (y & sup & Iy & _ & Ky). destruct (proj1 N eq_refl y Iy) as (? & ? & K'); [unfold needs_cpp_codegen; rewrite Ky; reflexivity|congruence].
  - destruct p as [f|]; cbn; [|rewrite app_nil_r; reflexivity]. exfalso. discriminate (proj2 N). intros x I NX.
    assert (T : existsb needs_cpp_codegen l = true) by (apply existsb_exists; exists x; auto). congruence.
Qed.
Print Assumptions c86_bridge_partial.

(** ** A whole conversion *)
From Verif Require Import ApiSpec ApiVecProofs RemoveIgnoredProofs GcModel GcProofs PipelineModel PipelineProofs PipelineProps FnDriverProofs FnDriverProps KeptProps.
(** What code is generated for is what function analysis left, but for what was refused afterwards, for the classes found to be abstract,
    and for the C types added at the end; and the names are distinct, as the theorems above ask. *)
Theorem c86_conversion d l r found fl : analyzed d l = OOk (r, found) -> final_apis d l = Some fl ->
  NoDup (map xname fl) /\
  forall x, In x fl -> x_ignored x = true \/ (exists q, x_kind x = XCType q) \/
    exists y, In y r /\ x_info y = x_info x /\
      (x_kind y = x_kind x \/ exists sd pa k, x_kind y = XStruct sd (Some pa) /\
        x_kind x = XStruct sd (Some (PA k (pa_bases pa) (pa_castable pa) (pa_field_deps pa) (pa_field_def_deps pa) (pa_fields pa) (pa_generics pa) (pa_anon pa)))).
Proof.
  intros A F. unfold final_apis in F. rewrite A in F. destruct (kept d l) as [v|] eqn:K; [|discriminate]. injection F as <-.
  unfold kept in K. rewrite A in K. unfold analyzed in A. destruct (front (dc_front d) l) as [l1| | |] eqn:FR; try discriminate.
  pose proof (v_nodup d l1 r found A) as NV. pose proof (r_nodup d l1 r found A) as NR. split.
  { rewrite map_map. apply (c58_unique_names _ _ _ _ _ _ _ _ _ NV K). }
  unfold pipeline in K. destruct (to_gc _ _ _ _ _ _ _) as [g|] eqn:GC; [|discriminate]. injection K as <-.
  assert (W : av_wf g). { destruct (stages _ _ _ _ _ _ _ g NV GC) as (abs & l2 & l4 & l5 & _ & _ & N5 & E). eapply gc_spec; eauto. }
  intros x H. apply in_map_iff in H as (b & <- & H). unfold restore, x_ignored. cbn [x_kind x_info].
  destruct (is_ignored b) eqn:IG; [left; unfold is_ignored in IG; destruct (api_kind_of b); try discriminate; reflexivity|]. right.
  assert (NI : ~ ignored b) by (apply not_ignored_is; exact IG).
  apply ctypes_in in H as [H|(q & E)]; [|left; rewrite E; eauto|exact W|exact NI].
  destruct (unchanged _ _ _ _ _ _ _ g b NV GC H NI) as (a & IA & EI & SAME & ST). rewrite (v_apis d l1 r found A) in IA. apply in_map_iff in IA as (y & EY & Iy).
  assert (FD : find (fun x => qn_eqb (xname x) (aname b)) r = Some y).
  { assert (EN : xname y = aname b) by (unfold xname, aname; rewrite <- EI, <- EY; reflexivity). clear - NR Iy EN.
    induction r as [|z r IH]; [destruct Iy|]. cbn. inversion NR as [|? ? N NR']; subst. destruct Iy as [->|Iy].
    - rewrite EN, qn_eqb_refl. reflexivity.
    - destruct (qn_eqb (xname z) (aname b)) eqn:E; [|apply IH; assumption]. apply qn_eqb_eq in E. exfalso. apply N. rewrite E, <- EN. apply in_map, Iy. }
  rewrite FD. cbn [option_map].
  assert (EX : x_info y = api_info b) by (rewrite <- EI, <- EY; reflexivity).
  assert (SM : (forall s, api_kind_of a <> KStruct s) -> b = erase d y) by (intros NS; rewrite EY; apply (SAME NS)).
  destruct (x_kind y) as [| | | |f pv [fa|]| | | |sd [pa|]|q| | | | | | |] eqn:KY;
    try (right; exists y; split; [exact Iy|]; split; [exact EX|]; left;
         rewrite SM by (rewrite <- EY; unfold erase; cbn; rewrite KY; discriminate); unfold erase; cbn [api_kind_of]; rewrite KY; reflexivity).
  - right. exists y. split; [exact Iy|]. split; [exact EX|]. right.
    destruct (ST _ (eq_trans (f_equal api_kind_of (eq_sym EY)) ltac:(unfold erase; cbn [api_kind_of]; rewrite KY; reflexivity))) as (s' & E'). rewrite E'.
    exists sd, pa, (st_kind s'). split; [exact KY|reflexivity].
Qed.
Print Assumptions c86_conversion.

(** ** Cases and refutations *)
From Verif Require Import FrontProps.
Definition opts : cpp_options := CO false None None "gen0.h" "autocxxgen_ffi.h" "autocxx_make_string_ffi".
(** [generate_all!], [exclude_utilities!] and a Rust subclass called [Sub]; or the same with only [named] asked for. *)
Definition all_cfg (named : string -> bool) : dcfg :=
  DC (AC (fun _ => false) (fun s => String.eqb s "SubHolder") (fun s => String.eqb s "SubHolder") named [] [] [] (fun _ => true) (fun s => String.eqb s "type")
    (fun _ => false) (fun _ => None) 50) AllFunctionsSafe true false (fun _ => false) "0xabc" false (fun _ => "t").
Definition all : dcfg := all_cfg (fun _ => true).
Definition a_class (i : api_name) : xapi := XA i (XStruct (SD [BF (Some "x") true (TPath [] "i32" [])] false []) None).
Definition a_method (ns : list string) (cls n : string) (v : virtualness) : xapi :=
  XA (AN (QN ns (cls +++ "_" +++ n)) (Some n)) (XFunction (Func (cls +++ "_" +++ n) [("this", TPtr true (TPath ("root" :: ns) cls []))] false None (Some v) VisPublic None
    (Some (QN ns cls)) None None None None) PvOther None).
Definition final_of (d : dcfg) (l : list xapi) : list xapi := match final_apis d l with Some f => f | None => [] end.

(** [class Base] with a virtual and a pure virtual method, a function taking a [Base], and the subclass. *)
Definition demo7 : list xapi :=
  [a_class (AN (q0 "Base") None); a_method [] "Base" "m" VtVirtual; a_method [] "Base" "n" VtPure;
   named0 "f" (XFunction (Func "f" [("a", rooted "Base")] false None None VisPublic None None None None None None) PvOther None); named0 "Sub" (XSubclass (q0 "Base"))].
Definition demo7_cfg : dcfg := all_cfg (fun s => existsb (String.eqb s) ["Base"; "Sub"; "SubCpp"; "SubHolder"; "f"]).
Definition demo7_fl : list xapi := Eval vm_compute in final_of demo7_cfg demo7.
Example c86_case : final_apis demo7_cfg demo7 = Some demo7_fl /\ NoDup (map xname demo7_fl) /\
  (exists p, codegen opts "INC" ["base.h"] demo7_fl = COk (Some p, ["base.h"; "autocxxgen_ffi.h"]) /\ fp_impl p <> None) /\
  subclasses demo7_fl = [(q0 "Sub", q0 "Base")] /\ List.length (constructors_for demo7_fl (q0 "Sub")) = 1 /\
  map snd (methods_for demo7_fl (q0 "Sub")) = [false; true] /\
  (exists f, has_code demo7_fl f /\ allocates f) /\
  (forall x sub d, In x demo7_fl -> x_kind x = XRustSubclassFn sub d -> exists y sup, In y demo7_fl /\ xname y = sub /\ x_kind y = XSubclass sup).
Proof.
  split; [vm_compute; reflexivity|]. split.
  { destruct (analyzed demo7_cfg demo7) as [[r found]| | |] eqn:A; [|vm_compute in A; discriminate A..].
    apply (c86_conversion demo7_cfg demo7 r found demo7_fl A). vm_compute. reflexivity. }
  split. { eexists. split; [vm_compute; reflexivity|discriminate]. }
  split; [vm_compute; reflexivity|]. split; [vm_compute; reflexivity|]. split; [vm_compute; reflexivity|]. split.
  - eexists. split; [left; exists (hd (named0 "" XConst) demo7_fl); split; [left; reflexivity|vm_compute; reflexivity]|exact Logic.I].
  - assert (S : exists x, In x demo7_fl /\ xname x = q0 "Sub" /\ x_kind x = XSubclass (q0 "Base")).
    { assert (I : In (q0 "Sub", q0 "Base") (subclasses demo7_fl)) by (vm_compute; left; reflexivity). unfold subclasses in I. apply in_flat_map in I as (x & I & J).
      exists x. split; [exact I|]. destruct (x_kind x); try destruct J; [|contradiction]. injection H as -> ->. auto. }
    destruct S as (y & Iy & Ny & Ky). intros x sub d I K. exists y, (q0 "Base"). split; [exact Iy|]. split; [|exact Ky]. rewrite Ny.
    assert (Q : forallb (fun x => match x_kind x with XRustSubclassFn s _ => qn_eqb s (q0 "Sub") | _ => true end) demo7_fl = true) by (vm_compute; reflexivity).
    rewrite forallb_forall in Q. specialize (Q x I). rewrite K in Q. apply qn_eqb_eq in Q. congruence.
Qed.

(** C86. A subclass's class has a member of type [rust::Box], which is declared in [cxx.h]; with [exclude_utilities!] and no POD types
    the header does not include it. *)
Theorem c86_cxx_h_refuted : exists d l fl p hs, final_apis d l = Some fl /\ generate_cpp_code opts "" fl = COk (Some p) /\ subclasses fl <> [] /\
  right_includes opts fl hs /\ ~ In HCxxH hs.
Proof.
  destruct c86_case as (F & ND & (p & C & _) & S & _). exists demo7_cfg, demo7, demo7_fl.
  assert (G : exists p, generate_cpp_code opts "" demo7_fl = COk (Some p)) by (eexists; vm_compute; reflexivity). destruct G as [p' G].
  destruct (c86_header opts "" demo7_fl p' ND G) as (hs & ts & ds & cs & RI & _). exists p', hs. split; [exact F|]. split; [exact G|]. split; [rewrite S; discriminate|].
  split; [exact RI|]. intros I. apply (ri_cxx _ _ _ RI) in I as (_ & [(x & I & K)|(x & sd & pa & I & K & P)]).
  - assert (Q : forallb (fun x => match x_kind x with XStringConstructor => false | _ => true end) demo7_fl = true) by (vm_compute; reflexivity).
    rewrite forallb_forall in Q. specialize (Q x I). rewrite K in Q. discriminate.
  - assert (Q : forallb (fun x => match x_kind x with XStruct _ (Some pa) => match pa_kind pa with Pod => false | _ => true end | _ => true end) demo7_fl = true) by (vm_compute; reflexivity).
    rewrite forallb_forall in Q. specialize (Q x I). rewrite K, P in Q. discriminate.
Qed.
Print Assumptions c86_cxx_h_refuted.

(** [a::Base] with a pure virtual method, [b::Base], and a subclass of the first. Types in different namespaces may not have the same name. *)
Definition demo10 : list xapi :=
  [a_class (AN (QN ["a"] "Base") None); a_class (AN (QN ["b"] "Base") None); a_method ["a"] "Base" "n" VtPure; named0 "Sub" (XSubclass (QN ["a"] "Base"))].
(** C86. A subclass is refused because its superclass is, and so its class is not written, but its constructor and what allocates it are: the header
    declares functions on a class [SubCpp] which does not exist. *)
Theorem c86_class_missing_refuted : exists d l fl p x w df, final_apis d l = Some fl /\ generate_cpp_code opts "" fl = COk (Some p) /\
  In x fl /\ to_wrap x = Some w /\ generate_cpp_function (names_of_apis fl) w = COk df /\ In "SubCpp*" (map fst (d_params df)) /\
  subclasses fl = [] /\ (forall y, In y fl -> xname y = q0 "SubCpp" \/ an_cpp (x_info y) = Some "SubCpp" -> exists f pv an, x_kind y = XFunction f pv an).
Proof.
  pose (fl := final_of all demo10). exists all, demo10, fl.
  assert (G : exists p, generate_cpp_code opts "" fl = COk (Some p)) by (eexists; vm_compute; reflexivity). destruct G as [p G]. exists p.
  pose (x := match find (fun x => qn_eqb (xname x) (q0 "SubCpp_autocxx_free_autocxx_wrapper_0xabc")) fl with Some x => x | None => named0 "" XConst end).
  exists x. pose (w := match to_wrap x with Some w => w | None => CppFn CbCast "" "" None [] CkFunction false None end). exists w.
  assert (D : exists df, generate_cpp_function (names_of_apis fl) w = COk df /\ map fst (d_params df) = ["SubCpp*"]) by (eexists; split; vm_compute; reflexivity).
  destruct D as (df & D & DP). exists df. split; [vm_compute; reflexivity|]. split; [exact G|].
  split. { assert (F : find (fun x => qn_eqb (xname x) (q0 "SubCpp_autocxx_free_autocxx_wrapper_0xabc")) fl = Some x) by (vm_compute; reflexivity). apply find_some in F. apply F. }
  split; [vm_compute; reflexivity|]. split; [exact D|]. split; [rewrite DP; left; reflexivity|]. split; [vm_compute; reflexivity|].
  assert (Q : forallb (fun y => match x_kind y with XFunction _ _ _ => true | _ =>
      negb (qn_eqb (xname y) (q0 "SubCpp")) && negb (match an_cpp (x_info y) with Some s => String.eqb s "SubCpp" | None => false end) end) fl = true) by (vm_compute; reflexivity).
  rewrite forallb_forall in Q. intros y I E. specialize (Q y I). clear - Q E. destruct (x_kind y); try (do 3 eexists; reflexivity); apply andb_true_iff in Q as [Q1 Q2];
    (destruct E as [E|E]; [rewrite E, qn_eqb_refl in Q1; discriminate|rewrite E, String.eqb_refl in Q2; discriminate]).
Qed.
Print Assumptions c86_class_missing_refuted.

(** C86. If moreover [c::Sub] is a class, the subclass is refused for its own name and only its override remains. No C++ is generated for it alone, but the bridge
    expects some, and generating it panics. *)
Theorem c86_no_header_refuted : exists d l fl, final_apis d l = Some fl /\ generate_cpp_code opts "" fl = COk None /\ codegen opts "" [] fl = CPanic.
Proof.
  exists all, (demo10 ++ [a_class (AN (QN ["c"] "Sub") None)]), (final_of all (demo10 ++ [a_class (AN (QN ["c"] "Sub") None)])).
  split; [vm_compute; reflexivity|]. split; vm_compute; reflexivity.
Qed.
Print Assumptions c86_no_header_refuted.

Lemma no_types m l ts : Forall2 (type_text m) l ts -> forallb (fun x => match x_kind x with XConcrete _ _ | XCType _ => false | _ => true end) l = true -> somes ts = [].
Proof.
  induction 1 as [|x t xs ts TX FT IH]; [reflexivity|]. cbn. intros Q. apply andb_true_iff in Q as [Q1 Q2]. unfold type_text in TX.
  destruct (x_kind x); try discriminate; subst t; exact (IH Q2).
Qed.
Definition in_text (s t : string) : Prop := exists pre post, t = pre +++ (s +++ post).
Lemma in_text_right a s t : in_text s t -> in_text s (a +++ t).
Proof. intros (pre & post & ->). exists (a +++ pre), post. rewrite sapp_assoc. reflexivity. Qed.
Lemma in_text_left a s t : in_text s t -> in_text s (t +++ a).
Proof. intros (pre & post & ->). exists pre, (post +++ a). rewrite !sapp_assoc. reflexivity. Qed.
Lemma in_text_here s t : in_text s (s +++ t).
Proof. exists "", t. reflexivity. Qed.
Lemma header_has o i hs a s l decls : in_text s (header_text o i hs (a :: s :: l) decls).
Proof.
  unfold header_text. do 15 apply in_text_right. apply in_text_left. apply in_text_left. cbn [join]. do 2 apply in_text_right.
  destruct l; [exists "", ""; clear; induction s as [|ch s IH]; [reflexivity|cbn; cbn in IH; rewrite <- IH; reflexivity]|apply in_text_here].
Qed.
Lemma class_text_start c s : qn_display (subclass_cpp (cc_sub c)) = s -> exists rest, class_text c = ("class " +++ s) +++ (" : public " +++ to_cpp_name (cc_sup c)) +++ rest.
Proof. intros <-. unfold class_text. eexists. rewrite !sapp_assoc. reflexivity. Qed.
(** [class Outer { class Inner { virtual void n(); }; };] and a subclass of [Inner]. *)
Definition demo12 : list xapi :=
  [a_class (AN (q0 "Outer") None); a_class (AN (q0 "Outer_Inner") (Some "Outer::Inner")); a_method [] "Outer_Inner" "n" VtVirtual; named0 "Sub" (XSubclass (q0 "Outer_Inner"))].
(** C86. The class of a subclass names its superclass as Rust does: that of a nested class has a base class which does not exist. *)
Theorem c86_nested_superclass_refuted : exists d l fl p y c rest, final_apis d l = Some fl /\ generate_cpp_code opts "" fl = COk (Some p) /\
  In (q0 "Sub", xname y) (subclasses fl) /\ In y fl /\ an_cpp (x_info y) = Some "Outer::Inner" /\ map_name (names_of_apis fl) (xname y) = "Outer::Inner" /\
  class_written (names_of_apis fl) fl (q0 "Sub", xname y) c /\ class_text c = "class SubCpp : public Outer_Inner" +++ rest /\ in_text (class_text c) (fp_header p).
Proof.
  pose (fl := final_of all demo12).
  assert (ND : NoDup (map xname fl)).
  { destruct (analyzed all demo12) as [[r found]| | |] eqn:A; [|vm_compute in A; discriminate A..].
    apply (c86_conversion all demo12 r found fl A). vm_compute. reflexivity. }
  assert (G : exists p, generate_cpp_code opts "" fl = COk (Some p)) by (eexists; vm_compute; reflexivity). destruct G as [p G].
  destruct (c86_header opts "" fl p ND G) as (hs & ts & ds & cs & RI & FT & _ & FC & EH & _).
  assert (S : subclasses fl = [(q0 "Sub", q0 "Outer_Inner")]) by (vm_compute; reflexivity). rewrite S in FC.
  inversion FC as [|s c ss cs' W F E1 E2]; subst. inversion F; subst. clear F FC.
  assert (T : somes ts = []).
  { assert (Q : forallb (fun x => match x_kind x with XConcrete _ _ | XCType _ => false | _ => true end) fl = true) by (vm_compute; reflexivity).
    exact (no_types _ _ _ FT Q). }
  assert (Y : exists y, find (fun x => qn_eqb (xname x) (q0 "Outer_Inner")) fl = Some y /\ an_cpp (x_info y) = Some "Outer::Inner" /\ map_name (names_of_apis fl) (xname y) = "Outer::Inner").
  { eexists. split; [vm_compute; reflexivity|]. split; vm_compute; reflexivity. }
  destruct Y as (y & FY & CY & MY). apply find_some in FY as [Iy NY]. apply qn_eqb_eq in NY.
  rewrite T in EH. cbn [app flat_map] in EH. destruct W as (W1 & W2 & W3). cbn [fst snd] in W1, W2.
  assert (CT : exists rest, class_text c = "class SubCpp : public Outer_Inner" +++ rest).
  { destruct (class_text_start c "SubCpp") as [rest E]; [rewrite W1; reflexivity|]. exists rest. rewrite E, W2. reflexivity. }
  destruct CT as [rest CT].
  exists all, demo12, fl, p, y, c, rest. split; [vm_compute; reflexivity|]. split; [exact G|]. split; [rewrite S, NY; left; reflexivity|].
  split; [exact Iy|]. split; [exact CY|]. split; [exact MY|]. split; [rewrite NY; split; [exact W1|split; [exact W2|exact W3]]|]. split; [exact CT|].
  rewrite EH. apply header_has.
Qed.
Print Assumptions c86_nested_superclass_refuted.
