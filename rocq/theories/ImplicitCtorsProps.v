(** C17, C18: special members are claimed only when C++ provides them. *)
From Coq Require Import Permutation.
From Verif Require Import Base QNamesModel KnownTypesModel ApiModel TypesModel TypesSpec ConcreteNamesModel TypeConverterModel
  ByValueModel ImplicitCtorsModel ImplicitCtorsProofs CxxClassSpec.

(** ** How a C++ program is seen by the analysis *)

(** A declaration and the function autocxx made of it. [wrapped]: with [unsafe_references_wrapped] the
    parameter of a copy constructor is no reference for Rust, and the constructor looks like any other
    (engine/src/conversion/analysis/fun/mod.rs:840-960). A copy constructor taking [T&] does so always. *)
Definition shown_as (wrapped : bool) (d : decl) (f : sm_fn) : Prop :=
  sf_deleted f = d_deleted d /\ sf_vis f = d_vis d /\
  match d_kind d with
  | DDefault => sf_kind f = SkConstructor true /\ sf_assign f = false
  | DCopy true => sf_kind f = (if wrapped then SkConstructor false else SkTrait TCopyConstructor) /\ sf_assign f = false
  | DCopy false | DOtherCtor => sf_kind f = SkConstructor false /\ sf_assign f = false
  | DMove => sf_kind f = SkTrait TMoveConstructor /\ sf_assign f = false
  | DDtor => sf_kind f = SkTrait TDestructor /\ sf_assign f = false
  | DCopyAssign => sf_kind f = SkOtherMethod /\ sf_assign f = true /\ sf_rvalue f = false /\ sf_receiver f = Some MMutable
  | DMoveAssign => sf_kind f = SkOtherMethod /\ sf_assign f = true /\ sf_rvalue f = true /\ sf_receiver f = Some MMutable
  | DMethod => sf_assign f = false /\ (sf_kind f = SkOtherMethod \/ sf_kind f = SkFunction \/
                 sf_kind f = SkTrait TCast \/ sf_kind f = SkTrait TAlloc \/ sf_kind f = SkTrait TDealloc)
  end.
Inductive elem_of : ty -> qname -> Prop :=
| el_named t q : refers_to t q -> elem_of t q
| el_array t n q : elem_of t q -> elem_of (TArray t n) q.
Definition shown_field (cf : cfield) (f : field_info) : Prop :=
  match cf with
  | CVal t => fi_kind f = TkRegular /\ elem_of (fi_ty f) t
  | CPtr => fi_kind f = TkPointer
  | CRef => fi_kind f = TkReference \/ fi_kind f = TkMutableReference
  | CRRef => fi_kind f = TkRValueReference
  end.
Definition seen_as (wrapped : bool) (fns : list sm_fn) (c : cclass) (s : ic_struct) : Prop :=
  ic_name s = c_name c /\ ic_bases s = c_bases c /\ Forall2 shown_field (c_fields c) (ic_fields s) /\
  (ic_rvalue s = true <-> In CRRef (c_fields c)) /\
  exists l, Permutation (c_decls c) l /\ Forall2 (shown_as wrapped) l (filter (fun f => qn_eqb (sf_for f) (c_name c)) fns).

Definition part_of (t : qname) (c : cclass) : Prop := In t (c_bases c) \/ In (CVal t) (c_fields c).
Definition looked_at (structs : list ic_struct) (t : qname) : Prop :=
  exists s, In s structs /\ ic_considered s = true /\ ic_name s = t.

(** The input of the analysis comes from a C++ program; bases and members precede their class (C03). *)
Record analysed (wrapped : bool) (prog : program) (fns : list sm_fn) (structs : list ic_struct) : Prop := {
  an_seen : forall s, In s structs -> ic_considered s = true -> exists c, In c (p_classes prog) /\ seen_as wrapped fns c s;
  an_order : forall before s after c, structs = before ++ s :: after -> ic_considered s = true ->
    In c (p_classes prog) -> c_name c = ic_name s -> forall t, part_of t c -> looked_at structs t -> looked_at before t;
  an_names : NoDup (map c_name (p_classes prog));
  an_one_dtor : forall c, In c (p_classes prog) -> (length (filter (fun d => match d_kind d with DDtor => true | _ => false end) (c_decls c)) <= 1)%nat
}.
(** The facts the table of built-in types records are right. *)
Definition built_ins_have (bi : special_member -> qname -> Prop) : Prop :=
  forall q mv cp, constructor_details q = Some (mv, cp) ->
    bi SmDefault q /\ bi SmDtor q /\ (cp = true -> bi SmCopy q) /\ (mv = true -> bi SmMove q).
(** All parts of a class are known to the analysis. *)
Definition transparent (prog : program) (fns : list sm_fn) (structs : list ic_struct) (s : ic_struct) (c : cclass) : Prop :=
  (forall t, part_of t c -> In t (p_enums prog) \/ constructor_details t <> None \/ looked_at structs t) /\
  (forall f, In f fns -> sf_for f = c_name c -> sf_assign f = true -> sf_ok f = true) /\
  (forall f t, In f (ic_fields s) -> fi_kind f = TkRegular -> elem_of (fi_ty f) t ->
     refers_to (fi_ty f) t \/ exists t' n, fi_ty f = TArray t' n /\ refers_to t' t).
(** What autocxx assumes of classes it does not fully know
    (engine/src/conversion/analysis/fun/implicit_constructors.rs:309-318). *)
Definition unknown_destructible (wrapped : bool) (prog : program) (bi : special_member -> qname -> Prop)
  (fns : list sm_fn) (structs : list ic_struct) : Prop :=
  forall c s, In c (p_classes prog) -> In s structs -> seen_as wrapped fns c s -> ~ transparent prog fns structs s c ->
    ~ declares c DDtor -> implicit prog bi SmDtor c.

(** ** Declarations *)

Lemma filter_perm {A} (p : A -> bool) (l l' : list A) : Permutation l l' -> Permutation (filter p l) (filter p l').
Proof.
  induction 1 as [|x l l' _ IH|x y l|l l' l'' _ IH1 _ IH2]; cbn.
  - constructor.
  - destruct (p x); auto.
  - destruct (p x), (p y); auto using perm_swap.
  - eapply perm_trans; eauto.
Qed.
Lemma Forall2_filter {A B} (R : A -> B -> Prop) (p : A -> bool) (q : B -> bool) l l' :
  Forall2 R l l' -> (forall a b, In b l' -> R a b -> p a = q b) -> Forall2 R (filter p l) (filter q l').
Proof.
  induction 1 as [|a b l l' H _ IH]; cbn; intros E; [constructor|].
  rewrite (E a b (or_introl eq_refl) H). destruct (q b); [constructor; auto|]; apply IH; intros; apply E; auto.
Qed.
Lemma Forall2_same_length {A B} (R : A -> B -> Prop) l l' : Forall2 R l l' -> length l = length l'.
Proof. induction 1; cbn; congruence. Qed.
Lemma filter_filter {A} (p q : A -> bool) l : filter (fun x => p x && q x) l = filter q (filter p l).
Proof. induction l as [|x r IH]; cbn; auto. destruct (p x); cbn; [destruct (q x); cbn; now rewrite IH|auto]. Qed.
Lemma filter_nil {A} (p : A -> bool) l x : filter p l = [] -> In x l -> p x = false.
Proof.
  intros H I. destruct (p x) eqn:E; auto. exfalso. assert (F : In x (filter p l)) by (apply filter_In; auto). rewrite H in F. exact F.
Qed.
Lemma filter_one {A} (p : A -> bool) l x : filter p l = [x] -> exists rest, Permutation l (x :: rest) /\ forall y, In y rest -> p y = false.
Proof.
  induction l as [|y r IH]; cbn; [discriminate|]. destruct (p y) eqn:E; intros H.
  - injection H as -> H. exists r. split; [auto|]. intros z Z. now apply (filter_nil p r).
  - destruct (IH H) as (rest & P & N). exists (y :: rest). split.
    + rewrite P. apply perm_swap.
    + intros z [<-|Z]; auto.
Qed.

(** The kind a declaration is recorded under. The source has the two assignment operators swapped. *)
Definition recorded (wrapped : bool) (k : dkind) : option ekind :=
  match k with
  | DDefault => Some EkDefault
  | DCopy true => Some (if wrapped then EkOther else EkConstCopy)
  | DCopy false | DOtherCtor => Some EkOther
  | DMove => Some EkMove
  | DDtor => Some EkDtor
  | DCopyAssign => Some EkMoveAssign
  | DMoveAssign => Some EkNonConstCopyAssign
  | DMethod => None
  end.
Definition rec_is (wrapped : bool) (k : ekind) (d : decl) : bool :=
  match recorded wrapped (d_kind d) with Some k' => ekind_eqb k k' | None => false end.
Definition is_assign (k : ekind) : bool := match k with EkConstCopyAssign | EkNonConstCopyAssign | EkMoveAssign => true | _ => false end.

Lemma shown_contributes wrapped k d f : shown_as wrapped d f -> is_assign k = false \/ (sf_assign f = true -> sf_ok f = true) ->
  rec_is wrapped k d = match contributes f with Some (CoKind k') => ekind_eqb k k' | _ => false end.
Proof.
  intros (_ & _ & H) OK. unfold rec_is, contributes. destruct d as [dk v del]. cbn [d_kind] in *.
  destruct dk as [|[]| | | | | |]; cbn [recorded].
  - destruct H as [A B]. rewrite A, ?B. reflexivity.
  - destruct H as [A B]. rewrite A. destruct wrapped; rewrite ?B; reflexivity.
  - destruct H as [A B]. rewrite A, ?B. reflexivity.
  - destruct H as [A B]. rewrite A, ?B. reflexivity.
  - destruct H as [A B]. rewrite A, ?B. reflexivity.
  - destruct H as [A B]. rewrite A, ?B. reflexivity.
  - destruct H as (-> & A & B & _). rewrite A, B. destruct OK as [K|K].
    + destruct (sf_ok f); destruct k; try discriminate; reflexivity.
    + now rewrite (K A).
  - destruct H as (-> & A & B & C). rewrite A, B, C. destruct OK as [K|K].
    + destruct (sf_ok f); destruct k; try discriminate; reflexivity.
    + now rewrite (K A).
  - destruct H as (A & [B|[B|[B|[B|B]]]]); rewrite A, B; reflexivity.
Qed.

Section Sound.
Variables (wrapped : bool) (prog : program) (bi : special_member -> qname -> Prop) (fns : list sm_fn) (structs : list ic_struct).
Hypothesis AN : analysed wrapped prog fns structs.
Hypothesis BI : built_ins_have bi.
Variables (ex : explicits) (unknown : list qname).
Hypothesis FE : find_explicit_items fns [] [] = Some (ex, unknown).

Lemma class_unique c c' : In c (p_classes prog) -> In c' (p_classes prog) -> c_name c = c_name c' -> c = c'.
Proof.
  destruct AN as [_ _ N _]. revert N. generalize (p_classes prog) as l. induction l as [|x r IH]; cbn; [tauto|].
  intros N. inversion N as [|y l' NI N' E]; subst. intros [->|H] [->|H'] E; auto.
  - exfalso. apply NI. rewrite E. now apply in_map.
  - exfalso. apply NI. rewrite <- E. now apply in_map.
Qed.

(** The declarations of kind [k] of a class are those the analysis counts. *)
Lemma counted c s k : seen_as wrapped fns c s -> is_assign k = false \/ (forall f, In f fns -> sf_for f = c_name c -> sf_assign f = true -> sf_ok f = true) ->
  exists l, Permutation (c_decls c) l /\ Forall2 (shown_as wrapped) (filter (rec_is wrapped k) l) (filter (of_kind (c_name c) k) fns) /\
    eget (ic_name s) k ex = found_of None (filter (of_kind (c_name c) k) fns).
Proof.
  intros (N & _ & _ & _ & l & P & F) OK. exists l. split; [auto|]. split.
  - unfold of_kind. rewrite filter_filter. apply Forall2_filter; [exact F|].
    intros d f I S. apply shown_contributes; [exact S|]. destruct OK as [K|K]; [now left|right].
    apply filter_In in I. destruct I as [I E]. apply qn_eqb_eq in E. now apply K.
  - rewrite N. rewrite (fei_eget fns [] [] ex unknown (c_name c) k FE). reflexivity.
Qed.
Lemma undeclared c s k : seen_as wrapped fns c s -> is_assign k = false \/ (forall f, In f fns -> sf_for f = c_name c -> sf_assign f = true -> sf_ok f = true) ->
  eget (ic_name s) k ex = None -> forall d, In d (c_decls c) -> recorded wrapped (d_kind d) <> Some k.
Proof.
  intros S OK E d I R. destruct (counted c s k S OK) as (l & P & F & G). rewrite E in G. symmetry in G. apply found_of_none in G. rewrite G in F.
  inversion F as [Z|]; subst. symmetry in Z. apply (Permutation_in d P) in I. apply (filter_nil _ _ d Z) in I.
  unfold rec_is in I. rewrite R, ekind_eqb_refl in I. discriminate.
Qed.
Lemma declared_once c s k v : seen_as wrapped fns c s -> is_assign k = false ->
  eget (ic_name s) k ex = Some (UserDefined v) ->
  exists d rest, Permutation (c_decls c) (d :: rest) /\ recorded wrapped (d_kind d) = Some k /\ d_deleted d = false /\ d_vis d = v /\
    forall d', In d' rest -> recorded wrapped (d_kind d') <> Some k.
Proof.
  intros S OK E. destruct (counted c s k S (or_introl OK)) as (l & P & F & G). rewrite E in G. symmetry in G.
  destruct (found_of_user _ _ G) as (f & L & D & V). rewrite L in F. inversion F as [|d f' l0 l1 R F' A B]; subst f' l1.
  inversion F' as [Z|]; subst. symmetry in A.
  destruct (filter_one _ _ _ A) as (rest & P2 & N). exists d, rest.
  split; [now rewrite P|]. destruct R as (R1 & R2 & _).
  assert (RD : recorded wrapped (d_kind d) = Some k).
  { assert (I : In d (filter (rec_is wrapped k) l)) by (rewrite A; now left). apply filter_In in I. destruct I as [_ I].
    unfold rec_is in I. destruct (recorded wrapped (d_kind d)) as [k'|]; [|discriminate]. apply ekind_eqb_eq in I. congruence. }
  split; [exact RD|]. split; [congruence|]. split; [congruence|].
  intros d' I R. specialize (N d' I). unfold rec_is in N. rewrite R, ekind_eqb_refl in N. discriminate.
Qed.
Lemma dtor_not_multiple c s : In c (p_classes prog) -> seen_as wrapped fns c s -> eget (ic_name s) EkDtor ex <> Some Multiple.
Proof.
  intros C S E. destruct (counted c s EkDtor S (or_introl eq_refl)) as (l & P & F & G). rewrite E in G. symmetry in G.
  apply found_of_multiple in G. assert (L := an_one_dtor _ _ _ _ AN c C).
  rewrite (Permutation_length (filter_perm _ _ _ P)) in L.
  rewrite <- (Forall2_same_length _ _ _ F) in G. revert G L.
  rewrite (filter_ext (rec_is wrapped EkDtor) (fun d => match d_kind d with DDtor => true | _ => false end)); [lia|].
  intros [dk v del]. unfold rec_is. cbn [d_kind]. destruct dk as [|[]| | | | | |]; destruct wrapped; reflexivity.
Qed.

(** ** What one struct's parts have *)

Definition can (w : asker) (m : special_member) (i : items) : bool :=
  let f := match w with FromSubclass => callable_subclass | FromAnyone => callable_any end in
  match m with SmDefault => f (i_default i) | SmDtor => f (i_dtor i) | SmMove => f (i_move i) | SmCopy => f (i_ccopy i) || f (i_nccopy i) end.
Definition claimed (m : special_member) (i : items) : bool :=
  match m with SmDefault => implicit_default_needed i | SmDtor => implicit_dtor_needed i | SmMove => implicit_move_needed i | SmCopy => implicit_copy_needed i end.
Definition good (m : special_member) (all : list (qname * items)) : Prop :=
  forall q i, In (q, i) all -> (forall w, can w m i = true -> usable prog bi w m q) /\
    (claimed m i = true -> exists c, In c (p_classes prog) /\ c_name c = q /\ implicit prog bi m c).

Lemma good_get m all q i w : good m all -> get_items_found (p_enums prog) all q = Some i -> can w m i = true -> usable prog bi w m q.
Proof.
  intros G H C. unfold get_items_found in H. destruct (qmem q (p_enums prog)) eqn:E.
  - apply us_enum. now apply qmem_In.
  - destruct (constructor_details q) as [[mv cp]|] eqn:D.
    + injection H as <-. destruct (BI q mv cp D) as (B1 & B2 & B3 & B4). apply us_built_in.
      destruct m; auto; [destruct mv|destruct cp]; auto; destruct w; discriminate.
    + apply qget_In in H. now apply (G q i).
Qed.
Lemma good_snoc m all q i : good m all -> (forall w, can w m i = true -> usable prog bi w m q) ->
  (claimed m i = true -> exists c, In c (p_classes prog) /\ c_name c = q /\ implicit prog bi m c) -> good m (all ++ [(q, i)]).
Proof.
  intros G A B q' i' H. apply in_app_or in H. destruct H as [H|[H|[]]]; [now apply G|]. injection H as <- <-. auto.
Qed.

Lemma Forall2_in_l {A B} (R : A -> B -> Prop) l l' x : Forall2 R l l' -> In x l -> exists y, In y l' /\ R x y.
Proof.
  induction 1 as [|a b l l' H _ IH]; cbn; [tauto|]. intros [->|I]; [eauto|]. destruct (IH I) as (y & Y & Z). eauto.
Qed.

Lemma refers_path t q : refers_to t q -> exists l i a, t = TPath l i a /\ path_name l i = Some q.
Proof.
  intros R. destruct R as [m ns id args M|ns id args M1 M2]; eexists _, _, args; (split; [reflexivity|]); apply (path_name_spec _ _ args);
    [now constructor|now constructor 2].
Qed.
Lemma field_get all f t i : fi_kind f = TkRegular -> elem_of (fi_ty f) t -> field_items (p_enums prog) all f = Some (Some i) ->
  get_items_found (p_enums prog) all t = Some i.
Proof.
  unfold field_items. intros -> E. destruct E as [ty q R|ty n q R].
  - destruct (refers_path _ _ R) as (l & id & a & -> & ->). intros H. now injection H.
  - destruct R as [ty q R|ty n' q R]; [|discriminate].
    destruct (refers_path _ _ R) as (l & id & a & -> & ->). intros H. now injection H.
Qed.

Lemma parts c s all b fl : seen_as wrapped fns c s -> get_all (p_enums prog) all (ic_bases s) = Some b ->
  fields_items (p_enums prog) all (ic_fields s) = Some (Some fl) ->
  (forall q, In q (c_bases c) -> exists i, In i b /\ get_items_found (p_enums prog) all q = Some i) /\
  (forall t, In (CVal t) (c_fields c) -> exists i, In i fl /\ get_items_found (p_enums prog) all t = Some i).
Proof.
  intros (_ & NB & F & _ & _) GB GF. split.
  - rewrite <- NB. apply (get_all_In _ _ _ _ GB).
  - intros t I. destruct (Forall2_in_l _ _ _ _ F I) as (f & IF & SF & EL).
    destruct (fields_items_In _ _ _ _ GF f IF) as (i & II & FI). exists i. split; [auto|]. now apply (field_get all f t i).
Qed.

(** A reference member has no default constructor for the analysis. *)
Lemma no_ref c s all fl (p : items -> bool) : seen_as wrapped fns c s -> fields_items (p_enums prog) all (ic_fields s) = Some (Some fl) ->
  p scalar_items = false -> forallb p fl = true -> ~ In CRef (c_fields c).
Proof.
  intros (_ & _ & F & _ & _) GF Z A I. destruct (Forall2_in_l _ _ _ _ F I) as (f & IF & SF).
  destruct (fields_items_In _ _ _ _ GF f IF) as (i & II & FI). rewrite forallb_forall in A. specialize (A i II).
  unfold field_items in FI. destruct SF as [E|E]; rewrite E in FI; injection FI as <-; congruence.
Qed.

Lemma is_explicit_can w o v : (match w with FromSubclass => callable_subclass | FromAnyone => callable_any end) (is_explicit o) = true ->
  is_explicit o = v -> exists v', o = Some (UserDefined v') /\ grants v' w.
Proof.
  intros H _. destruct o as [[v'| |]|]; [exists v'|..]; [|destruct w; discriminate..].
  split; [auto|]. destruct w, v'; cbn in *; auto; discriminate.
Qed.
Lemma explicit_usable c s w m k : In c (p_classes prog) -> seen_as wrapped fns c s ->
  (forall d, In d (c_decls c) -> (recorded wrapped (d_kind d) = Some k <-> stands_for m (d_kind d))) -> is_assign k = false ->
  (match w with FromSubclass => callable_subclass | FromAnyone => callable_any end) (is_explicit (eget (ic_name s) k ex)) = true ->
  usable prog bi w m (ic_name s).
Proof.
  intros C S K A H. destruct (is_explicit_can w _ _ H eq_refl) as (v & E & G).
  destruct (declared_once c s k v S A E) as (d & rest & P & R & D & V & N). destruct S as (-> & _).
  assert (ID : forall x, In x (d :: rest) -> In x (c_decls c)) by (intros x; apply Permutation_in; now apply Permutation_sym).
  apply (us_declared prog bi w m c d rest); auto.
  - apply K; [apply ID; now left|auto].
  - now rewrite V.
  - intros d' I ST. apply (N d' I). apply K; [apply ID; now right|auto].
Qed.

(** The class of a struct the loop is at. *)
Lemma ok_assign s c : seen_as wrapped fns c s -> qmem (ic_name s) unknown = false ->
  forall f, In f fns -> sf_for f = c_name c -> sf_assign f = true -> sf_ok f = true.
Proof.
  intros S Q f I E A. destruct (sf_ok f) eqn:O; auto. exfalso. apply qmem_nIn in Q. apply Q.
  apply (fei_unknown fns [] [] ex unknown (ic_name s) FE). right. exists f. split; [auto|].
  destruct S as (N & _ & _ & _ & l & P & F). split; [congruence|].
  assert (J : In f (filter (fun f => qn_eqb (sf_for f) (c_name c)) fns)) by (apply filter_In; split; [auto|now apply qn_eqb_eq]).
  clear - F J A O. induction F as [|d g l l' (_ & _ & SH) _ IH]; [destruct J|]. destruct J as [->|J]; [|auto].
  unfold contributes. rewrite A, O. destruct (d_kind d) as [|[]| | | | | |]; 
    try (destruct SH as [_ X]; congruence); try (destruct SH as [X _]; congruence); destruct SH as (-> & _); reflexivity.
Qed.

(** When the analysis does not know all parts, the class is not transparent. *)
Lemma not_transparent before after s c all :
  structs = before ++ s :: after -> ic_considered s = true -> In c (p_classes prog) -> seen_as wrapped fns c s ->
  map fst all = considered_names before ->
  get_all (p_enums prog) all (ic_bases s) = None \/ fields_items (p_enums prog) all (ic_fields s) = Some None \/ qmem (ic_name s) unknown = true ->
  ~ transparent prog fns structs s c.
Proof.
  intros ES CS C S M H (T1 & T2 & T3).
  assert (K : forall t, part_of t c -> get_items_found (p_enums prog) all t <> None).
  { intros t PT N. unfold get_items_found in N. destruct (T1 t PT) as [E|[E|E]].
    - apply qmem_In in E. rewrite E in N. discriminate.
    - destruct (qmem t (p_enums prog)); [discriminate|]. destruct (constructor_details t); [discriminate|]. now apply E.
    - destruct S as (SN & _). symmetry in SN.
      destruct (an_order _ _ _ _ AN before s after c ES CS C SN t PT E) as (s' & I' & C' & N').
      destruct (qmem t (p_enums prog)); [discriminate|]. destruct (constructor_details t); [discriminate|].
      rewrite qget_None in N. apply N. rewrite M. unfold considered_names. apply in_map_iff. exists s'. split; [auto|].
      apply filter_In. auto. }
  destruct H as [H|[H|H]].
  - apply get_all_none in H. destruct H as (q & I & N). apply (K q); [left|auto]. destruct S as (_ & <- & _). auto.
  - apply fields_items_none in H. destruct H as (f & I & N).
    assert (X : exists cf, In cf (c_fields c) /\ shown_field cf f).
    { destruct S as (_ & _ & F & _). clear - F I. induction F as [|cf g l l' SH _ IH]; [destruct I|].
      destruct I as [->|I]; [exists cf; cbn; auto|]. destruct (IH I) as (x & X & Y). exists x. cbn. auto. }
    destruct X as (cf & ICF & SF). unfold field_items in N. destruct cf as [t| | |]; cbn in SF.
    + destruct SF as [FK EL]. rewrite FK in N.
      assert (G : get_items_found (p_enums prog) all t = None).
      { destruct (T3 f t I FK EL) as [R|(t' & n & E & R)].
        - destruct (refers_path _ _ R) as (l & id & a & E2 & E3). rewrite E2, E3 in N. now injection N.
        - destruct (refers_path _ _ R) as (l & id & a & E2 & E3). rewrite E, E2, E3 in N. now injection N. }
      apply (K t); [now right|auto].
    + rewrite SF in N. discriminate.
    + destruct SF as [E|E]; rewrite E in N; discriminate.
    + rewrite SF in N. discriminate.
  - apply qmem_In in H. apply (fei_unknown fns [] [] ex unknown (ic_name s) FE) in H. destruct H as [[]|(f & I & E & CO)].
    destruct S as (SN & _). rewrite SN in E. specialize (T2 f I E). unfold contributes in CO.
    destruct (sf_kind f) as [[]| |[]|]; try discriminate; destruct (sf_assign f); try discriminate; rewrite (T2 eq_refl) in CO;
      destruct (sf_rvalue f); try discriminate; destruct (sf_receiver f) as [[]|]; discriminate.
Qed.

Lemma items_cases a s i : items_of ex unknown (p_enums prog) a s = Some i ->
  (exists b f, get_all (p_enums prog) a (ic_bases s) = Some b /\ fields_items (p_enums prog) a (ic_fields s) = Some (Some f) /\
     qmem (ic_name s) unknown = false /\
     i = Items (default_constructor ex s b f) (destructor ex s b f) (fst (copy_constructors ex s b f)) (snd (copy_constructors ex s b f))
           (move_constructor ex s b f)) \/
  ((get_all (p_enums prog) a (ic_bases s) = None \/ fields_items (p_enums prog) a (ic_fields s) = Some None \/ qmem (ic_name s) unknown = true) /\
   i = explicits_only ex (ic_name s)).
Proof.
  unfold items_of. destruct (fields_items (p_enums prog) a (ic_fields s)) as [fo|]; [|discriminate].
  destruct (get_all (p_enums prog) a (ic_bases s)) as [b|]; destruct fo as [f|]; destruct (qmem (ic_name s) unknown); intros H; injection H as <-; auto.
  left. exists b, f. auto.
Qed.

Variable res : list (qname * items).
Hypothesis FA : find_all ex unknown (p_enums prog) structs [] = Some res.

Lemma good_all m :
  (forall a s c i before after, structs = before ++ s :: after -> ic_considered s = true -> In c (p_classes prog) -> seen_as wrapped fns c s ->
     map fst a = considered_names before -> items_of ex unknown (p_enums prog) a s = Some i -> good m a ->
     (forall q x, In (q, x) a -> In (q, x) res) ->
     (forall w, can w m i = true -> usable prog bi w m (ic_name s)) /\ (claimed m i = true -> implicit prog bi m c)) ->
  good m res.
Proof.
  intros H.
  assert (G : good m res /\ forall q x, In (q, x) res -> In (q, x) res).
  { assert (SUB : forall a, (exists t, res = a ++ t) -> forall q x, In (q, x) a -> In (q, x) res).
    { intros a [t ->] q x I. apply in_or_app. now left. }
    split; [|auto].
    assert (PRE : forall l a r, find_all ex unknown (p_enums prog) l a = Some r -> exists t, r = a ++ t).
    { induction l as [|x l IH]; cbn [find_all]; intros a r E; [exists []; rewrite app_nil_r; congruence|].
      destruct (ic_considered x); [|auto]. destruct (items_of ex unknown (p_enums prog) a x); [|discriminate].
      destruct (qget (ic_name x) a); [discriminate|]. destruct (IH _ _ E) as [t ->]. rewrite <- app_assoc. eauto. }
    assert (REC : forall l a before, structs = before ++ l -> map fst a = considered_names before ->
        find_all ex unknown (p_enums prog) l a = Some res -> good m a -> good m res).
    { induction l as [|x l IH]; cbn [find_all]; intros a before ES M E GA; [injection E as <-; exact GA|].
      destruct (ic_considered x) eqn:CX.
      - destruct (items_of ex unknown (p_enums prog) a x) as [i|] eqn:I; [|discriminate].
        destruct (qget (ic_name x) a); [discriminate|].
        assert (IX : In x structs) by (rewrite ES; apply in_or_app; right; now left).
        destruct (an_seen _ _ _ _ AN x IX CX) as (c & IC & SC).
        destruct (PRE _ _ _ E) as [t T].
        destruct (H a x c i before l ES CX IC SC M I GA) as [H1 H2].
        { apply SUB. rewrite T, <- app_assoc. eauto. }
        apply (IH (a ++ [(ic_name x, i)]) (before ++ [x])); auto.
        + now rewrite <- app_assoc.
        + unfold considered_names. rewrite map_app, filter_app, map_app, M. cbn. now rewrite CX.
        + apply good_snoc; auto. intros CL. exists c. destruct SC as (-> & _). auto.
      - apply (IH a (before ++ [x])); auto.
        + now rewrite <- app_assoc.
        + unfold considered_names. rewrite filter_app, map_app, M. cbn. rewrite CX. now rewrite app_nil_r. }
    apply (REC structs [] []); auto. intros q i []. }
  exact (proj1 G).
Qed.

Lemma absent_none n k : absent ex n k = true <-> eget n k ex = None.
Proof. unfold absent. destruct (eget n k ex); split; congruence. Qed.

Lemma dtor_kinds c d : In d (c_decls c) -> recorded wrapped (d_kind d) = Some EkDtor <-> stands_for SmDtor (d_kind d).
Proof. intros _. destruct (d_kind d) as [|[]| | | | | |]; destruct wrapped; cbn; split; intros; try discriminate; tauto. Qed.
Lemma default_kinds c d : In d (c_decls c) -> recorded wrapped (d_kind d) = Some EkDefault <-> stands_for SmDefault (d_kind d).
Proof. intros _. destruct (d_kind d) as [|[]| | | | | |]; destruct wrapped; cbn; split; intros; try discriminate; tauto. Qed.
Lemma move_kinds c d : In d (c_decls c) -> recorded wrapped (d_kind d) = Some EkMove <-> stands_for SmMove (d_kind d).
Proof. intros _. destruct (d_kind d) as [|[]| | | | | |]; destruct wrapped; cbn; split; intros; try discriminate; tauto. Qed.

Lemma can_implicit w m c s : In c (p_classes prog) -> seen_as wrapped fns c s -> implicit prog bi m c -> usable prog bi w m (ic_name s).
Proof. intros C (-> & _) I. now apply us_implicit. Qed.

Lemma no_dtor c s : seen_as wrapped fns c s -> eget (ic_name s) EkDtor ex = None -> ~ declares c DDtor.
Proof. intros S E (d & I & K). apply (undeclared c s EkDtor S (or_introl eq_refl) E d I). now rewrite K. Qed.

Lemma explicit_not_implicit o : exists_implicit (is_explicit o) = false.
Proof. now destruct o as [[]|]. Qed.

Hypothesis UD : unknown_destructible wrapped prog bi fns structs.

Lemma dtor_good : good SmDtor res.
Proof.
  apply good_all. intros a s c i before after ES CS C S M I G _. apply items_cases in I. destruct I as [(b & f & GB & GF & Q & ->)|[U ->]].
  - destruct (parts c s a b f S GB GF) as [PB PF]. cbn [can claimed i_dtor implicit_dtor_needed].
    unfold implicit_dtor_needed, destructor. cbn [i_dtor]. destruct (absent ex (ic_name s) EkDtor) eqn:A.
    + apply absent_none in A.
      destruct (forallb (fun i => callable_subclass (i_dtor i)) b && forallb (fun i => callable_any (i_dtor i)) f) eqn:E.
      * apply andb_true_iff in E. destruct E as [EB EF]. rewrite forallb_forall in EB, EF.
        assert (IM : implicit prog bi SmDtor c).
        { apply im_dtor.
          - now apply (no_dtor c s).
          - intros x X. destruct (PB x X) as (i & I1 & I2). apply (good_get SmDtor a x i FromSubclass G I2). now apply EB.
          - intros x X. destruct (PF x X) as (i & I1 & I2). apply (good_get SmDtor a x i FromAnyone G I2). now apply EF. }
        split; [|auto]. intros w _. now apply (can_implicit w SmDtor c).
      * split; [|discriminate]. intros []; discriminate.
    + split; [|now rewrite explicit_not_implicit]. intros w. apply (explicit_usable c s w SmDtor EkDtor C S); auto. apply dtor_kinds.
  - assert (NT := not_transparent before after s c a ES CS C S M U). cbn [can claimed].
    unfold implicit_dtor_needed, explicits_only. cbn [i_dtor]. destruct (eget (ic_name s) EkDtor ex) as [[v| |]|] eqn:E.
    + split; [|discriminate]. intros w K. apply (explicit_usable c s w SmDtor EkDtor C S); auto; [apply dtor_kinds|].
      rewrite E. exact K.
    + split; [|discriminate]. intros []; discriminate.
    + exfalso. now apply (dtor_not_multiple c s C S).
    + assert (IM : implicit prog bi SmDtor c).
      { apply (UD c s); auto; [|now apply (no_dtor c s)]. rewrite ES. apply in_or_app. right. now left. }
      split; [|auto]. intros w _. now apply (can_implicit w SmDtor c).
Qed.

Lemma sub_good m a : good m res -> (forall q x, In (q, x) a -> In (q, x) res) -> good m a.
Proof. intros G H q i I. apply G. auto. Qed.

Lemma no_ctor c s : seen_as wrapped fns c s -> absent ex (ic_name s) EkDefault = true ->
  existsb (fun e : qname * ekind * efound => qn_eqb (fst (fst e)) (ic_name s) &&
       match snd (fst e) with EkConstCopy | EkNonConstCopy | EkMove | EkOther => true | _ => false end) ex = false ->
  forall d, In d (c_decls c) -> ~ is_ctor (d_kind d).
Proof.
  intros S A E.
  assert (N : forall k, match k with EkConstCopy | EkNonConstCopy | EkMove | EkOther => true | _ => false end = true -> eget (ic_name s) k ex = None).
  { intros k K. destruct (eget (ic_name s) k ex) as [e|] eqn:G; auto. apply eget_In in G. exfalso.
    assert (T : existsb (fun e : qname * ekind * efound => qn_eqb (fst (fst e)) (ic_name s) &&
       match snd (fst e) with EkConstCopy | EkNonConstCopy | EkMove | EkOther => true | _ => false end) ex = true).
    { apply existsb_exists. exists (ic_name s, k, e). split; [auto|]. cbn [fst snd]. now rewrite qn_eqb_refl. }
    rewrite T in E. discriminate. }
  intros d I K. apply absent_none in A.
  assert (U := fun k => undeclared c s k S).
  destruct (d_kind d) as [|[]| | | | | |] eqn:DK; try contradiction.
  - apply (U EkDefault (or_introl eq_refl) A d I). now rewrite DK.
  - destruct wrapped eqn:W.
    + apply (U EkOther (or_introl eq_refl) (N EkOther eq_refl) d I). now rewrite DK.
    + apply (U EkConstCopy (or_introl eq_refl) (N EkConstCopy eq_refl) d I). now rewrite DK.
  - apply (U EkOther (or_introl eq_refl) (N EkOther eq_refl) d I). now rewrite DK.
  - apply (U EkMove (or_introl eq_refl) (N EkMove eq_refl) d I). now rewrite DK.
  - apply (U EkOther (or_introl eq_refl) (N EkOther eq_refl) d I). now rewrite DK.
Qed.

Lemma default_good : good SmDefault res.
Proof.
  apply good_all. intros a s c i before after ES CS C S M I G SUB. assert (GD := sub_good SmDtor a dtor_good SUB).
  apply items_cases in I. destruct I as [(b & f & GB & GF & Q & ->)|[U ->]].
  - destruct (parts c s a b f S GB GF) as [PB PF]. cbn [can claimed].
    unfold implicit_default_needed, default_constructor. cbn [i_default].
    match goal with |- context[if ?c then _ else _] => destruct c eqn:A end.
    + apply andb_true_iff in A. destruct A as [A1 A2]. apply negb_true_iff in A2.
      match goal with |- context[if ?c then _ else _] => destruct c eqn:E end.
      * apply andb_true_iff in E. destruct E as [E EF]. apply andb_true_iff in E. destruct E as [ER EB]. apply negb_true_iff in ER.
        assert (IM : implicit prog bi SmDefault c).
        { apply im_default.
          - now apply (no_ctor c s).
          - now apply (no_ref c s a f _ S GF eq_refl EF).
          - destruct S as (_ & _ & _ & R & _). intros X. apply R in X. congruence.
          - rewrite forallb_forall in EB. intros x X. destruct (PB x X) as (i & I1 & I2). specialize (EB i I1).
            apply andb_true_iff in EB. destruct EB as [B1 B2].
            split; [apply (good_get SmDtor a x i FromSubclass GD I2 B1)|apply (good_get SmDefault a x i FromSubclass G I2 B2)].
          - rewrite forallb_forall in EF. intros x X. destruct (PF x X) as (i & I1 & I2). specialize (EF i I1).
            apply andb_true_iff in EF. destruct EF as [B1 B2].
            split; [apply (good_get SmDtor a x i FromAnyone GD I2 B1)|apply (good_get SmDefault a x i FromAnyone G I2 B2)]. }
        split; [|auto]. intros w _. now apply (can_implicit w SmDefault c).
      * split; [|discriminate]. intros []; discriminate.
    + split; [|now rewrite explicit_not_implicit]. intros w. apply (explicit_usable c s w SmDefault EkDefault C S); auto. apply default_kinds.
  - cbn [can claimed]. unfold implicit_default_needed, explicits_only. cbn [i_default].
    split; [|now rewrite explicit_not_implicit]. intros w. apply (explicit_usable c s w SmDefault EkDefault C S); auto. apply default_kinds.
Qed.

(** Nothing is ever recorded as a non-const copy constructor. *)
Lemma no_nonconst q : eget q EkNonConstCopy ex = None.
Proof.
  rewrite (fei_eget fns [] [] ex unknown q EkNonConstCopy FE). cbn [eget].
  replace (filter (of_kind q EkNonConstCopy) fns) with (@nil sm_fn); [reflexivity|].
  clear. induction fns as [|f r IH]; [reflexivity|]. cbn [filter]. rewrite <- IH.
  replace (of_kind q EkNonConstCopy f) with false; [reflexivity|]. symmetry. unfold of_kind.
  apply andb_false_iff. right. unfold contributes.
  destruct (sf_kind f) as [[]| |[]|]; try reflexivity; destruct (sf_assign f); try reflexivity;
    destruct (sf_ok f); try reflexivity; destruct (sf_rvalue f); try reflexivity; destruct (sf_receiver f) as [[]|]; reflexivity.
Qed.

Section Copies.
Hypothesis NW : wrapped = false.
Hypothesis NC : forall c, In c (p_classes prog) -> ~ declares c (DCopy false).

Lemma copy_kinds c d : In c (p_classes prog) -> In d (c_decls c) -> recorded wrapped (d_kind d) = Some EkConstCopy <-> stands_for SmCopy (d_kind d).
Proof.
  intros C I. destruct (d_kind d) as [|[]| | | | | |] eqn:E; rewrite ?NW; cbn; split; intros H; try discriminate; try tauto.
  exfalso. apply (NC c C). now exists d.
Qed.
Lemma no_decl c s k k' : seen_as wrapped fns c s -> is_assign k = false \/ (forall f, In f fns -> sf_for f = c_name c -> sf_assign f = true -> sf_ok f = true) ->
  eget (ic_name s) k ex = None -> recorded false k' = Some k -> ~ declares c k'.
Proof. intros S OK E R (d & I & K). apply (undeclared c s k S OK E d I). now rewrite K, NW. Qed.

Lemma copy_good : (forall c, In c (p_classes prog) -> ~ declares c DMoveAssign) -> good SmCopy res.
Proof.
  intros NM. apply good_all. intros a s c i before after ES CS C S M I G SUB. assert (GD := sub_good SmDtor a dtor_good SUB).
  apply items_cases in I. destruct I as [(b & f & GB & GF & Q & ->)|[U ->]].
  - destruct (parts c s a b f S GB GF) as [PB PF]. cbn [can claimed].
    unfold implicit_copy_needed, copy_constructors. cbn [i_ccopy i_nccopy].
    destruct (absent ex (ic_name s) EkConstCopy && absent ex (ic_name s) EkNonConstCopy) eqn:A.
    + apply andb_true_iff in A. destruct A as [A1 _]. apply absent_none in A1.
      match goal with |- context[if ?c then _ else (NotPresent, NotPresent)] => destruct c eqn:E end.
      * apply andb_true_iff in E. destruct E as [E EF]. apply andb_true_iff in E. destruct E as [E EB].
        apply andb_true_iff in E. destruct E as [EM ER]. apply negb_true_iff in ER. apply absent_none in EM.
        assert (IM : implicit prog bi SmCopy c).
        { apply im_copy.
          - now apply (no_decl c s EkConstCopy _ S (or_introl eq_refl) A1).
          - now apply NC.
          - now apply (no_decl c s EkMove _ S (or_introl eq_refl) EM).
          - now apply NM.
          - destruct S as (_ & _ & _ & R & _). intros X. apply R in X. congruence.
          - rewrite forallb_forall in EB. intros x X. destruct (PB x X) as (i & I1 & I2). specialize (EB i I1).
            apply andb_true_iff in EB. destruct EB as [B1 B2].
            split; [apply (good_get SmDtor a x i FromSubclass GD I2 B1)|apply (good_get SmCopy a x i FromSubclass G I2 B2)].
          - rewrite forallb_forall in EF. intros x X. destruct (PF x X) as (i & I1 & I2). specialize (EF i I1).
            apply andb_true_iff in EF. destruct EF as [B1 B2].
            split; [apply (good_get SmDtor a x i FromAnyone GD I2 B1)|apply (good_get SmCopy a x i FromAnyone G I2 B2)]. }
        split; [|auto]. intros w _. now apply (can_implicit w SmCopy c).
      * cbn. split; [|discriminate]. intros []; discriminate.
    + cbn [fst snd]. rewrite no_nonconst. cbn [is_explicit]. split.
      * intros w K. apply (explicit_usable c s w SmCopy EkConstCopy C S); auto; [intros d; now apply copy_kinds|].
        destruct w; cbn in K |- *; now rewrite orb_false_r in K.
      * rewrite explicit_not_implicit. discriminate.
  - cbn [can claimed]. unfold implicit_copy_needed, explicits_only. cbn [i_ccopy i_nccopy]. rewrite no_nonconst. cbn [is_explicit]. split.
    + intros w K. apply (explicit_usable c s w SmCopy EkConstCopy C S); auto; [intros d; now apply copy_kinds|].
      destruct w; cbn in K |- *; now rewrite orb_false_r in K.
    + rewrite explicit_not_implicit. discriminate.
Qed.

Lemma move_good : (forall c t, In c (p_classes prog) -> In (CVal t) (c_fields c) -> usable prog bi FromAnyone SmDtor t) -> good SmMove res.
Proof.
  intros FD. apply good_all. intros a s c i before after ES CS C S M I G SUB. assert (GD := sub_good SmDtor a dtor_good SUB).
  apply items_cases in I. destruct I as [(b & f & GB & GF & Q & ->)|[U ->]].
  - destruct (parts c s a b f S GB GF) as [PB PF]. cbn [can claimed].
    unfold implicit_move_needed, move_constructor. cbn [i_move].
    match goal with |- context[if ?c then _ else _] => destruct c eqn:A end.
    + cbn [forallb] in A. repeat (apply andb_true_iff in A; let X := fresh "A" in destruct A as [X A]; apply absent_none in X).
      match goal with |- context[if ?c then _ else _] => destruct c eqn:E end.
      * apply andb_true_iff in E. destruct E as [EB EF].
        assert (OA := ok_assign s c S Q).
        assert (IM : implicit prog bi SmMove c).
        { apply im_move.
          - now apply (no_decl c s EkConstCopy _ S (or_introl eq_refl)).
          - now apply NC.
          - now apply (no_decl c s EkMove _ S (or_introl eq_refl)).
          - now apply (no_decl c s EkNonConstCopyAssign _ S (or_intror OA)).
          - now apply (no_decl c s EkMoveAssign _ S (or_intror OA)).
          - now apply (no_decl c s EkDtor _ S (or_introl eq_refl)).
          - rewrite forallb_forall in EB. intros x X. destruct (PB x X) as (i & I1 & I2). specialize (EB i I1).
            apply andb_true_iff in EB. destruct EB as [B1 B2].
            split; [apply (good_get SmDtor a x i FromSubclass GD I2 B1)|apply mv_move, (good_get SmMove a x i FromSubclass G I2 B2)].
          - rewrite forallb_forall in EF. intros x X. destruct (PF x X) as (i & I1 & I2). specialize (EF i I1).
            split; [now apply (FD c)|apply mv_move, (good_get SmMove a x i FromAnyone G I2 EF)]. }
        split; [|auto]. intros w _. now apply (can_implicit w SmMove c).
      * split; [|discriminate]. intros []; discriminate.
    + split; [|now rewrite explicit_not_implicit]. intros w. apply (explicit_usable c s w SmMove EkMove C S); auto. apply move_kinds.
  - cbn [can claimed]. unfold implicit_move_needed, explicits_only. cbn [i_move].
    split; [|now rewrite explicit_not_implicit]. intros w. apply (explicit_usable c s w SmMove EkMove C S); auto. apply move_kinds.
Qed.
End Copies.
End Sound.

(** ** C17 *)

Lemma synthesized_claimed ei blocked res q m : In (q, m) (synthesized ei blocked res) -> exists i, In (q, i) res /\ claimed m i = true.
Proof.
  unfold synthesized. destruct ei; [intros []|]. intros H. apply in_flat_map in H. destruct H as ([q' i] & I & H). cbn [fst snd] in H.
  destruct (blocked (to_cpp_name q')); [destruct H|].
  repeat (apply in_app_or in H; destruct H as [H|H]);
    match type of H with In _ (if ?c then _ else _) => destruct c eqn:E end; try destruct H as [H|[]]; try (destruct H; fail);
    injection H as <- <-; exists i; split; auto.
Qed.

(** C17: a default constructor or destructor is synthesised only if C++ itself declares it, public and not
    deleted. Partial: classes the analysis does not fully know are assumed to be destructible. *)
Theorem c17_default_and_destructor_partial : forall wrapped prog bi fns structs res ei blocked q m,
  analysed wrapped prog fns structs -> built_ins_have bi -> unknown_destructible wrapped prog bi fns structs ->
  find_constructors_present fns (p_enums prog) structs = Some res ->
  In (q, m) (synthesized ei blocked res) -> m = SmDefault \/ m = SmDtor ->
  exists c, In c (p_classes prog) /\ c_name c = q /\ implicit prog bi m c.
Proof.
  intros wrapped prog bi fns structs res ei blocked q m AN BI UD F S M. unfold find_constructors_present in F.
  destruct (find_explicit_items fns [] []) as [[ex u]|] eqn:FE; [|discriminate].
  destruct (synthesized_claimed _ _ _ _ _ S) as (i & I & C).
  destruct M as [-> | ->].
  - exact (proj2 (default_good wrapped prog bi fns structs AN BI ex u FE res F UD q i I) C).
  - exact (proj2 (dtor_good wrapped prog bi fns structs AN BI ex u FE res F UD q i I) C).
Qed.

(** C17: the same for copy constructors. Partial: references are not wrapped, no class declares [T(T&)] or a
    move assignment operator; see the refutations below. *)
Theorem c17_copy_partial : forall prog bi fns structs res ei blocked q,
  analysed false prog fns structs -> built_ins_have bi -> unknown_destructible false prog bi fns structs ->
  (forall c, In c (p_classes prog) -> ~ declares c (DCopy false) /\ ~ declares c DMoveAssign) ->
  find_constructors_present fns (p_enums prog) structs = Some res -> In (q, SmCopy) (synthesized ei blocked res) ->
  exists c, In c (p_classes prog) /\ c_name c = q /\ implicit prog bi SmCopy c.
Proof.
  intros prog bi fns structs res ei blocked q AN BI UD N F S. unfold find_constructors_present in F.
  destruct (find_explicit_items fns [] []) as [[ex u]|] eqn:FE; [|discriminate].
  destruct (synthesized_claimed _ _ _ _ _ S) as (i & I & C).
  apply (copy_good false prog bi fns structs AN BI ex u FE res F UD eq_refl (fun c H => proj1 (N c H)) (fun c H => proj2 (N c H)) q i I). exact C.
Qed.

(** C17: the same for move constructors. Partial: references are not wrapped, no class declares [T(T&)], and
    every member can be destroyed. *)
Theorem c17_move_partial : forall prog bi fns structs res ei blocked q,
  analysed false prog fns structs -> built_ins_have bi -> unknown_destructible false prog bi fns structs ->
  (forall c, In c (p_classes prog) -> ~ declares c (DCopy false)) ->
  (forall c t, In c (p_classes prog) -> In (CVal t) (c_fields c) -> usable prog bi FromAnyone SmDtor t) ->
  find_constructors_present fns (p_enums prog) structs = Some res -> In (q, SmMove) (synthesized ei blocked res) ->
  exists c, In c (p_classes prog) /\ c_name c = q /\ implicit prog bi SmMove c.
Proof.
  intros prog bi fns structs res ei blocked q AN BI UD N FD F S. unfold find_constructors_present in F.
  destruct (find_explicit_items fns [] []) as [[ex u]|] eqn:FE; [|discriminate].
  destruct (synthesized_claimed _ _ _ _ _ S) as (i & I & C).
  apply (move_good false prog bi fns structs AN BI ex u FE res F UD eq_refl N FD q i I). exact C.
Qed.

(** C17: a type taken for movable or destructible by Rust code is so in C++. Partial in the same ways. *)
Theorem c17_public_members_partial : forall prog bi fns structs res q,
  analysed false prog fns structs -> built_ins_have bi -> unknown_destructible false prog bi fns structs ->
  find_constructors_present fns (p_enums prog) structs = Some res ->
  (snd (public_constructors (qget q res)) = true -> usable prog bi FromAnyone SmDtor q) /\
  ((forall c, In c (p_classes prog) -> ~ declares c (DCopy false)) ->
   (forall c t, In c (p_classes prog) -> In (CVal t) (c_fields c) -> usable prog bi FromAnyone SmDtor t) ->
   fst (public_constructors (qget q res)) = true -> usable prog bi FromAnyone SmMove q).
Proof.
  intros prog bi fns structs res q AN BI UD F. unfold find_constructors_present in F.
  destruct (find_explicit_items fns [] []) as [[ex u]|] eqn:FE; [|discriminate].
  destruct (qget q res) as [i|] eqn:Q; [|split; discriminate]. apply qget_In in Q. split.
  - intros H. exact (proj1 (dtor_good false prog bi fns structs AN BI ex u FE res F UD q i Q) FromAnyone H).
  - intros N FD H. exact (proj1 (move_good false prog bi fns structs AN BI ex u FE res F UD eq_refl N FD q i Q) FromAnyone H).
Qed.

(** *** Where C17 is false *)

Definition tn (s : string) : qname := QN [] s.
Definition plain (n : string) (bases : list qname) (fields : list field_info) : ic_struct := IcStruct (tn n) NonPod bases fields 0 false false.
Definition fn_of (n : string) (k : sm_kind) (v : cpp_vis) (del : bool) : sm_fn := SmFn (tn n) k false true false (Some MMutable) del v.
Definition val_field (t : string) : field_info := FI (TPath [] t []) TkRegular false.
(** [bi] says nothing about types which are not built in. *)
Definition only_built_ins (bi : special_member -> qname -> Prop) : Prop := forall m q, bi m q -> constructor_details q <> None.
Definition wrongly_claims (wrapped : bool) (m : special_member) : Prop :=
  exists prog fns structs res q, analysed wrapped prog fns structs /\
    find_constructors_present fns (p_enums prog) structs = Some res /\ In (q, m) (synthesized false (fun _ => false) res) /\
    forall bi, only_built_ins bi -> forall c, In c (p_classes prog) -> c_name c = q -> ~ implicit prog bi m c.

Lemma one_class wrapped c s fns enums : seen_as wrapped fns c s ->
  (length (filter (fun d => match d_kind d with DDtor => true | _ => false end) (c_decls c)) <= 1)%nat ->
  (forall t, part_of t c -> t <> ic_name s) -> analysed wrapped (Program [c] enums) fns [s].
Proof.
  intros S O P. split.
  - intros s' [<-|[]] _. exists c. cbn. auto.
  - intros b s' a c' E _ [<-|[]] _ t PT (s2 & I & _ & N). cbn in I. destruct I as [<-|[]]. exfalso. now apply (P t PT).
  - cbn. repeat constructor; auto.
  - intros c' [<-|[]]. exact O.
Qed.

(** A class with [T(T&)] is given a copy constructor taking [const T&]. *)
Theorem c17_nonconst_copy_refuted : wrongly_claims false SmCopy.
Proof.
  exists (Program [Class (tn "A") [Decl (DCopy false) VPublic false] [] []] []),
    [fn_of "A" (SkConstructor false) VPublic false], [plain "A" [] []],
    [(tn "A", Items NotPresent Implicit Implicit NotPresent Implicit)], (tn "A").
  split; [|split; [reflexivity|split; [cbn; auto|]]].
  - apply one_class; [|cbn; lia|intros t [[]|[]]].
    split; [reflexivity|]. split; [reflexivity|]. split; [constructor|]. split; [split; [discriminate|intros []]|].
    eexists. split; [apply Permutation_refl|]. constructor; [repeat split|constructor].
  - intros bi _ c [<-|[]] _ I. inversion I as [| |c' N1 N2 N3 N4 N5 N6 N7|]; subst. apply N2. eexists. split; [now left|reflexivity].
Qed.
(** It is given a move constructor too. *)
Theorem c17_nonconst_copy_move_refuted : wrongly_claims false SmMove.
Proof.
  exists (Program [Class (tn "A") [Decl (DCopy false) VPublic false] [] []] []),
    [fn_of "A" (SkConstructor false) VPublic false], [plain "A" [] []],
    [(tn "A", Items NotPresent Implicit Implicit NotPresent Implicit)], (tn "A").
  split; [|split; [reflexivity|split; [cbn; auto|]]].
  - apply one_class; [|cbn; lia|intros t [[]|[]]].
    split; [reflexivity|]. split; [reflexivity|]. split; [constructor|]. split; [split; [discriminate|intros []]|].
    eexists. split; [apply Permutation_refl|]. constructor; [repeat split|constructor].
  - intros bi _ c [<-|[]] _ I. inversion I as [| | |c' N1 N2 N3 N4 N5 N6 N7 N8]; subst. apply N2. eexists. split; [now left|reflexivity].
Qed.
(** A declared move assignment operator does not stop autocxx from claiming a copy constructor. *)
Theorem c17_move_assignment_refuted : exists c s fns res,
  analysed false (Program [c] []) fns [s] /\ ~ declares c (DCopy false) /\
  find_constructors_present fns [] [s] = Some res /\ In (c_name c, SmCopy) (synthesized false (fun _ => false) res) /\
  forall bi, ~ implicit (Program [c] []) bi SmCopy c.
Proof.
  exists (Class (tn "A") [Decl DMoveAssign VPublic false] [] []), (plain "A" [] []),
    [SmFn (tn "A") SkOtherMethod true true true (Some MMutable) false VPublic], [(tn "A", Items Implicit Implicit Implicit NotPresent NotPresent)].
  split; [|split; [|split; [reflexivity|split; [cbn; auto|]]]].
  - apply one_class; [|cbn; lia|intros t [[]|[]]].
    split; [reflexivity|]. split; [reflexivity|]. split; [constructor|]. split; [split; [discriminate|intros []]|].
    eexists. split; [apply Permutation_refl|]. constructor; [repeat split|constructor].
  - intros (d & [<-|[]] & E). discriminate.
  - intros bi I. inversion I as [| |c' N1 N2 N3 N4 N5 N6 N7|]; subst. apply N4. eexists. split; [now left|reflexivity].
Qed.
(** With wrapped references even a deleted copy constructor is overlooked. *)
Theorem c17_wrapped_references_refuted : exists c s fns res,
  analysed true (Program [c] []) fns [s] /\ declares c (DCopy true) /\ (forall d, In d (c_decls c) -> d_deleted d = true) /\
  find_constructors_present fns [] [s] = Some res /\ In (c_name c, SmCopy) (synthesized false (fun _ => false) res) /\
  forall bi, ~ implicit (Program [c] []) bi SmCopy c.
Proof.
  exists (Class (tn "A") [Decl (DCopy true) VPublic true] [] []), (plain "A" [] []),
    [fn_of "A" (SkConstructor false) VPublic true], [(tn "A", Items NotPresent Implicit Implicit NotPresent Implicit)].
  split; [|split; [|split; [|split; [reflexivity|split; [cbn; auto|]]]]].
  - apply one_class; [|cbn; lia|intros t [[]|[]]].
    split; [reflexivity|]. split; [reflexivity|]. split; [constructor|]. split; [split; [discriminate|intros []]|].
    eexists. split; [apply Permutation_refl|]. constructor; [repeat split|constructor].
  - eexists. split; [now left|reflexivity].
  - intros d [<-|[]]. reflexivity.
  - intros bi I. inversion I as [| |c' N1 N2 N3 N4 N5 N6 N7|]; subst. apply N1. eexists. split; [now left|reflexivity].
Qed.
(** A move constructor is claimed although a member has a private destructor. *)
Theorem c17_member_destructor_refuted : exists c d fns structs res,
  analysed false (Program [c; d] []) fns structs /\ ~ declares d (DCopy false) /\
  find_constructors_present fns [] structs = Some res /\ In (c_name d, SmMove) (synthesized false (fun _ => false) res) /\
  forall bi, only_built_ins bi -> ~ implicit (Program [c; d] []) bi SmMove d.
Proof.
  exists (Class (tn "A") [Decl DDtor VPrivate false; Decl DMove VPublic false] [] []), (Class (tn "B") [] [] [CVal (tn "A")]),
    [fn_of "A" (SkTrait TDestructor) VPrivate false; fn_of "A" (SkTrait TMoveConstructor) VPublic false],
    [plain "A" [] []; plain "B" [] [val_field "A"]],
    [(tn "A", Items NotPresent (Explicit VPrivate) NotPresent NotPresent (Explicit VPublic));
     (tn "B", Items NotPresent NotPresent NotPresent NotPresent Implicit)].
  split; [|split; [|split; [reflexivity|split; [cbn; auto|]]]].
  - split.
    + intros s [<-|[<-|[]]] _.
      * eexists. split; [now left|]. split; [reflexivity|]. split; [reflexivity|]. split; [constructor|].
        split; [split; [discriminate|intros []]|]. eexists. split; [apply Permutation_refl|]. cbn. repeat constructor.
      * eexists. split; [right; now left|]. split; [reflexivity|]. split; [reflexivity|].
        split; [|split; [split; [discriminate|intros [H|[]]; discriminate]|eexists; split; [apply Permutation_refl|cbn; constructor]]].
        constructor; [|constructor]. split; [reflexivity|]. apply el_named. apply ref_plain; cbn; discriminate.
    + intros b s a c E _ [<-|[<-|[]]] N t PT (s2 & I & C2 & N2).
      * destruct PT as [[]|[]].
      * destruct PT as [[]|[PT|[]]]. injection PT as <-. destruct b as [|b1 b].
        -- injection E as <- _. discriminate.
        -- injection E as <- E. exists (plain "A" [] []). split; [now left|]. split; reflexivity.
    + cbn. repeat constructor; cbn; intuition discriminate.
    + intros c [<-|[<-|[]]]; cbn; lia.
  - intros (x & [] & _).
  - intros bi OB I. inversion I as [| | |c' N1 N2 N3 N4 N5 N6 N7 N8]; subst. destruct (N8 (tn "A") (or_introl eq_refl)) as [U _].
    inversion U as [w m q B E1 E2|w m q E E1 E2|w m c d rest IC P SF DE G OT E1 E2|w m c IC IM E1 E2]; subst.
    + apply OB in B. apply B. vm_compute. reflexivity.
    + destruct E.
    + cbn in IC. destruct IC as [IC|[IC|[]]]; rewrite <- IC in *; [|discriminate]. cbn [c_decls] in P.
      assert (ID : In d [Decl DDtor VPrivate false; Decl DMove VPublic false]) by (apply (Permutation_in d (Permutation_sym P)); now left).
      destruct ID as [<-|[<-|[]]]; [destruct G|destruct SF].
    + cbn in IC. destruct IC as [IC|[IC|[]]]; rewrite <- IC in *; [|discriminate]. inversion IM as [|c' ND _ _| |]; subst. apply ND. eexists. split; [now left|reflexivity].
Qed.
(** Destructors of classes with unknown parts are claimed whatever C++ says. *)
Theorem c17_unknown_destructor_refuted : exists c d fns structs res,
  analysed false (Program [c; d] []) fns structs /\
  find_constructors_present fns [] structs = Some res /\ In (c_name d, SmDtor) (synthesized false (fun _ => false) res) /\
  forall bi, only_built_ins bi -> ~ implicit (Program [c; d] []) bi SmDtor d.
Proof.
  exists (Class (tn "Tpl") [Decl DDtor VPrivate false] [] []), (Class (tn "B") [] [] [CVal (tn "Tpl")]),
    [fn_of "Tpl" (SkTrait TDestructor) VPrivate false],
    [IcStruct (tn "Tpl") Opaque [] [] 0 false false; plain "B" [] [val_field "Tpl"]],
    [(tn "B", Items NotPresent Implicit NotPresent NotPresent NotPresent)].
  split; [|split; [reflexivity|split; [cbn; auto|]]].
  - split.
    + intros s [<-|[<-|[]]] CS; [discriminate|].
      eexists. split; [right; now left|]. split; [reflexivity|]. split; [reflexivity|].
      split; [|split; [split; [discriminate|intros [H|[]]; discriminate]|eexists; split; [apply Permutation_refl|cbn; constructor]]].
      constructor; [|constructor]. split; [reflexivity|]. apply el_named. apply ref_plain; cbn; discriminate.
    + intros b s a c E CS [<-|[<-|[]]] N t PT (s2 & I & C2 & N2).
      * destruct PT as [[]|[]].
      * destruct PT as [[]|[PT|[]]]. injection PT as <-. destruct I as [<-|[<-|[]]]; discriminate.
    + cbn. repeat constructor; cbn; intuition discriminate.
    + intros c [<-|[<-|[]]]; cbn; lia.
  - intros bi OB I. inversion I as [|c' ND NB NF| |]; subst. assert (U := NF (tn "Tpl") (or_introl eq_refl)).
    inversion U as [w m q B E1 E2|w m q E E1 E2|w m c d rest IC P SF DE G OT E1 E2|w m c IC IM E1 E2]; subst.
    + apply OB in B. apply B. vm_compute. reflexivity.
    + destruct E.
    + cbn in IC. destruct IC as [IC|[IC|[]]]; rewrite <- IC in *; [|discriminate]. cbn [c_decls] in P.
      assert (ID : In d [Decl DDtor VPrivate false]) by (apply (Permutation_in d (Permutation_sym P)); now left).
      destruct ID as [<-|[]]. destruct G.
    + cbn in IC. destruct IC as [IC|[IC|[]]]; rewrite <- IC in *; [|discriminate]. inversion IM as [|c' ND' _ _| |]; subst. apply ND'. eexists. split; [now left|reflexivity].
Qed.

(** *** A case meeting the hypotheses *)

Definition nv_base : cclass := Class (tn "Base") [Decl DDefault VProtected false; Decl DDtor VProtected false] [] [].
Definition nv_mid : cclass := Class (tn "Mid") [Decl DCopyAssign VPublic false; Decl DMethod VPublic false] [] [CVal (tn "i32"); CVal (tn "Colour"); CPtr].
Definition nv_der : cclass := Class (tn "Der") [] [tn "Base"] [CVal (tn "i32")].
Definition nv_prog : program := Program [nv_base; nv_mid; nv_der] [tn "Colour"].
Definition nv_fns : list sm_fn :=
  [fn_of "Base" (SkTrait TDestructor) VProtected false; SmFn (tn "Mid") SkOtherMethod true true false (Some MMutable) false VPublic;
   fn_of "Base" (SkConstructor true) VProtected false; fn_of "Mid" SkOtherMethod VPublic false].
Definition nv_structs : list ic_struct :=
  [plain "Base" [] [];
   plain "Mid" [] [FI (TArray (TPath [] "i32" []) "4") TkRegular false; val_field "Colour"; FI (TPtr true (TPath [] "Der" [])) TkPointer false];
   plain "Der" [tn "Base"] [val_field "i32"]].

Lemma named_val n : n <> "root" -> n <> "output" -> shown_field (CVal (tn n)) (val_field n).
Proof. intros A B. split; [reflexivity|]. apply el_named, ref_plain; assumption. Qed.
Lemma nv_seen_base : seen_as false nv_fns nv_base (plain "Base" [] []).
Proof.
  split; [reflexivity|]. split; [reflexivity|]. split; [constructor|]. split; [split; [discriminate|intros []]|].
  exists [Decl DDtor VProtected false; Decl DDefault VProtected false]. split; [apply perm_swap|].
  constructor; [repeat split|]. constructor; [repeat split|]. constructor.
Qed.
Lemma nv_seen_mid : seen_as false nv_fns nv_mid (nth 1 nv_structs (plain "Base" [] [])).
Proof.
  split; [reflexivity|]. split; [reflexivity|]. split; [|split; [split; [discriminate|intros [H|[H|[H|[]]]]; discriminate]|]].
  - constructor; [split; [reflexivity|apply el_array, el_named, ref_plain; discriminate]|].
    constructor; [apply named_val; discriminate|]. constructor; [reflexivity|constructor].
  - exists (c_decls nv_mid). split; [apply Permutation_refl|].
    constructor; [repeat split|]. constructor; [split; [reflexivity|split; [reflexivity|split; [reflexivity|now left]]]|constructor].
Qed.
Lemma nv_seen_der : seen_as false nv_fns nv_der (plain "Der" [tn "Base"] [val_field "i32"]).
Proof.
  split; [reflexivity|]. split; [reflexivity|]. split; [|split; [split; [discriminate|intros [H|[]]; discriminate]|]].
  - constructor; [apply named_val; discriminate|constructor].
  - exists []. split; [constructor|]. cbn. constructor.
Qed.
Lemma nv_analysed : analysed false nv_prog nv_fns nv_structs.
Proof.
  split.
  - intros s [<-|[<-|[<-|[]]]] _; eexists; (split; [|first [exact nv_seen_base|exact nv_seen_mid|exact nv_seen_der]]); cbn; auto.
  - intros b s a c E CS C N t PT (s2 & I & C2 & N2).
    assert (TB : t = tn "Base").
    { destruct I as [<-|[<-|[<-|[]]]]; [auto| |]; cbn in N2; subst t; exfalso;
      destruct C as [<-|[<-|[<-|[]]]]; destruct PT as [PT|PT]; cbn in PT; repeat (destruct PT as [PT|PT]; try discriminate); auto. }
    subst t. destruct b as [|b1 b].
    + injection E as <- _. destruct C as [<-|[<-|[<-|[]]]]; try discriminate. destruct PT as [[]|[]].
    + injection E as <- _. exists (plain "Base" [] []). split; [now left|]. split; [reflexivity|now rewrite TB].
  - cbn. repeat constructor; cbn; intuition discriminate.
  - intros c [<-|[<-|[<-|[]]]]; cbn; lia.
Qed.
Lemma nv_transparent c s : In c (p_classes nv_prog) -> In s nv_structs -> seen_as false nv_fns c s -> transparent nv_prog nv_fns nv_structs s c.
Proof.
  intros C S SE. split; [|split].
  - assert (K : constructor_details (tn "i32") <> None) by (vm_compute; discriminate).
    intros t PT. destruct C as [<-|[<-|[<-|[]]]].
    + destruct PT as [[]|[]].
    + destruct PT as [[]|[H|[H|[H|[]]]]]; [injection H as <-; auto|injection H as <-; left; now left|discriminate].
    + destruct PT as [[<-|[]]|[H|[]]].
      * right. right. exists (plain "Base" [] []). split; [now left|]. split; reflexivity.
      * injection H as <-. auto.
  - intros f [<-|[<-|[<-|[<-|[]]]]]; reflexivity.
  - intros f t I FK EL. destruct S as [<-|[<-|[<-|[]]]]; cbn in I; [destruct I| |].
    + destruct I as [<-|[<-|[<-|[]]]]; [right|left|discriminate].
      * inversion EL as [x y R|x n y R]; subst; [inversion R|]. inversion R as [x y R'|]; subst. eexists _, _. split; [reflexivity|exact R'].
      * inversion EL as [x y R|]; subst. exact R.
    + destruct I as [<-|[]]. left. inversion EL as [x y R|]; subst. exact R.
Qed.
Lemma nv_unknown bi : unknown_destructible false nv_prog bi nv_fns nv_structs.
Proof. intros c s C S SE NT. exfalso. apply NT. now apply nv_transparent. Qed.

(** A class derived from one with protected special members, and one with a user-declared assignment
    operator and pointers: what is synthesised, and that the hypotheses of the theorems hold. *)
Example c17_nonvacuous : exists res,
  analysed false nv_prog nv_fns nv_structs /\
  (forall bi, unknown_destructible false nv_prog bi nv_fns nv_structs) /\
  (forall c, In c (p_classes nv_prog) -> ~ declares c (DCopy false) /\ ~ declares c DMoveAssign) /\
  find_constructors_present nv_fns (p_enums nv_prog) nv_structs = Some res /\
  synthesized false (fun _ => false) res =
    [(tn "Base", SmCopy); (tn "Mid", SmCopy); (tn "Mid", SmDtor); (tn "Der", SmDefault); (tn "Der", SmCopy); (tn "Der", SmDtor)].
Proof.
  eexists. split; [exact nv_analysed|]. split; [exact nv_unknown|]. split; [|split; vm_compute; reflexivity].
  intros c C. split; intros (d & I & K); destruct C as [<-|[<-|[<-|[]]]]; cbn in I;
    repeat (destruct I as [<-|I]; [discriminate K|]); exact I.
Qed.

(** ** C18 *)

(** What the analysis holds a part to offer: enums, built-in types, classes it has a result for. *)
Definition reaches (w : asker) (s : smf) : Prop :=
  s = Implicit \/ exists v, s = Explicit v /\ grants v w.
Definition has_member (w : asker) (m : special_member) (i : items) : Prop :=
  match m with
  | SmDefault => reaches w (i_default i) | SmDtor => reaches w (i_dtor i) | SmMove => reaches w (i_move i)
  | SmCopy => reaches w (i_ccopy i) \/ reaches w (i_nccopy i)
  end.
Inductive offers (enums : list qname) (res : list (qname * items)) (w : asker) (m : special_member) (q : qname) : Prop :=
| of_enum : In q enums -> m <> SmDefault -> offers enums res w m q
| of_built_in mv cp : constructor_details q = Some (mv, cp) -> (m = SmMove -> mv = true) -> (m = SmCopy -> cp = true) -> offers enums res w m q
| of_class i : In (q, i) res -> has_member w m i -> offers enums res w m q.
Definition unheard_of (enums : list qname) (res : list (qname * items)) (q : qname) : Prop :=
  ~ In q enums /\ constructor_details q = None /\ forall i, ~ In (q, i) res.
(** The types held by value in a field. *)
Definition holds_value (s : ic_struct) (t : qname) : Prop :=
  exists f, In f (ic_fields s) /\ fi_kind f = TkRegular /\ (refers_to (fi_ty f) t \/ exists t' n, fi_ty f = TArray t' n /\ refers_to t' t).

Lemma reaches_callable w s : (match w with FromSubclass => callable_subclass | FromAnyone => callable_any end) s = true -> reaches w s.
Proof. destruct w, s as [| |[]]; cbn; intros H; try discriminate; [now left|right; eexists; split; [reflexivity|exact I]..|now left|right; eexists; split; [reflexivity|exact I]]. Qed.
Lemma can_has w m i : can w m i = true -> has_member w m i.
Proof.
  destruct m; cbn; intros H; try now apply reaches_callable. apply orb_true_iff in H. destruct H as [H|H]; [left|right]; now apply reaches_callable.
Qed.

Lemma qget_app {A} q (v : A) l l' : qget q l = Some v -> qget q (l ++ l') = Some v.
Proof.
  induction l as [|[k x] r IH]; cbn; [discriminate|]. destruct (qn_eqb q k); auto.
Qed.

(** Each result entry was computed from results which stay. *)
Lemma entry_of ex unknown enums : forall structs a res s, find_all ex unknown enums structs a = Some res -> In s structs -> ic_considered s = true ->
  exists a' t i, res = a' ++ (ic_name s, i) :: t /\ items_of ex unknown enums a' s = Some i /\ qget (ic_name s) a' = None.
Proof.
  assert (PRE : forall l a r, find_all ex unknown enums l a = Some r -> exists t, r = a ++ t).
  { induction l as [|x l IH]; cbn [find_all]; intros a r E; [exists []; rewrite app_nil_r; congruence|].
    destruct (ic_considered x); [|auto]. destruct (items_of ex unknown enums a x); [|discriminate].
    destruct (qget (ic_name x) a); [discriminate|]. destruct (IH _ _ E) as [t ->]. rewrite <- app_assoc. eauto. }
  induction structs as [|x l IH]; cbn [find_all]; intros a res s E I C; [destruct I|].
  destruct I as [->|I].
  - rewrite C in E. destruct (items_of ex unknown enums a s) as [i|] eqn:IT; [|discriminate].
    destruct (qget (ic_name s) a) eqn:Q; [discriminate|]. destruct (PRE _ _ _ E) as [t ->]. exists a, t, i.
    rewrite <- app_assoc. auto.
  - destruct (ic_considered x); [|eauto]. destruct (items_of ex unknown enums a x); [|discriminate].
    destruct (qget (ic_name x) a); [discriminate|]. eauto.
Qed.
Lemma nodup_find ex unknown enums : forall structs a res, find_all ex unknown enums structs a = Some res -> NoDup (map fst a) -> NoDup (map fst res).
Proof.
  induction structs as [|x l IH]; cbn [find_all]; intros a res E N; [congruence|].
  destruct (ic_considered x); [|eauto]. destruct (items_of ex unknown enums a x) as [i|]; [|discriminate].
  destruct (qget (ic_name x) a) eqn:Q; [discriminate|]. apply (IH _ _ E). rewrite map_app. cbn.
  apply qget_None in Q. apply NoDup_app_intro; [auto|repeat constructor; cbn; tauto|]. intros y Y [<-|[]]. now apply Q.
Qed.
Lemma nodup_pair {A} (l : list (qname * A)) q x y : NoDup (map fst l) -> In (q, x) l -> In (q, y) l -> x = y.
Proof.
  induction l as [|[k v] r IH]; cbn; intros N; [tauto|]. inversion N as [|z l' NI N']; subst.
  intros [H|H] [H'|H']; [congruence| | |auto]; exfalso; apply NI.
  - injection H as -> ->. now apply (in_map fst) in H'.
  - injection H' as -> ->. now apply (in_map fst) in H.
Qed.

Lemma get_offers enums a t q i w m : get_items_found enums a q = Some i -> can w m i = true -> offers enums (a ++ t) w m q.
Proof.
  unfold get_items_found. destruct (qmem q enums) eqn:E.
  - intros H C. injection H as <-. apply of_enum; [now apply qmem_In|]. intros ->. destruct w; discriminate.
  - destruct (constructor_details q) as [[mv cp]|] eqn:D.
    + intros H C. injection H as <-. apply (of_built_in _ _ _ _ _ mv cp D); intros ->; [destruct mv|destruct cp]; auto; destruct w; discriminate.
    + intros H C. apply (of_class _ _ _ _ _ i); [apply in_or_app; left; now apply qget_In|now apply can_has].
Qed.

Lemma value_item enums a s f t : fields_items enums a (ic_fields s) = Some (Some f) -> holds_value s t ->
  exists i, In i f /\ get_items_found enums a t = Some i.
Proof.
  intros GF (x & I & K & R). destruct (fields_items_In enums a _ _ GF x I) as (i & II & FI). exists i. split; [auto|].
  unfold field_items in FI. rewrite K in FI. destruct R as [R|(t' & n & E & R)];
    destruct (refers_path _ _ R) as (l & id & ar & E2 & E3).
  - rewrite E2, E3 in FI. now injection FI.
  - rewrite E, E2, E3 in FI. now injection FI.
Qed.

(** C18: a member is synthesised for a class only if every base and every by-value member has it, within
    reach, and can be destroyed (members' destructors are not looked at for moves). A destructor may also
    be synthesised if something about the class is unknown. *)
Theorem c18_parts_offer_it : forall fns enums structs res s i m,
  find_constructors_present fns enums structs = Some res -> In s structs -> ic_considered s = true ->
  In (ic_name s, i) res -> In (ic_name s, m) (synthesized false (fun _ => false) [(ic_name s, i)]) ->
  ((forall b, In b (ic_bases s) -> offers enums res FromSubclass m b /\ offers enums res FromSubclass SmDtor b) /\
   (forall t, holds_value s t -> offers enums res FromAnyone m t /\ (m <> SmMove -> offers enums res FromAnyone SmDtor t)))
  \/ m = SmDtor.
Proof.
  intros fns enums structs res s i m F IS CS IR SY. unfold find_constructors_present in F.
  destruct (find_explicit_items fns [] []) as [[ex u]|] eqn:FE; [|discriminate].
  destruct (synthesized_claimed _ _ _ _ _ SY) as (j & [J|[]] & CL). injection J as <-.
  destruct (entry_of ex u enums structs [] res s F IS CS) as (a & t & i' & RES & IT & Q).
  assert (i' = i).
  { apply (nodup_pair res (ic_name s)); auto; [apply (nodup_find ex u enums structs [] res F); constructor|].
    rewrite RES. apply in_or_app. right. now left. }
  subst i'. pose (prog := Program [] enums).
  apply (items_cases prog ex u a s i) in IT.
  destruct IT as [(b & f & GB & GF & QU & ->)|[U ->]]; cbn [p_enums prog] in *.
  - left. rewrite RES.
    assert (OB : forall w q x, In q (ic_bases s) -> (forall y, In y b -> can w x y = true) -> offers enums (a ++ (ic_name s, Items (default_constructor ex s b f)
          (destructor ex s b f) (fst (copy_constructors ex s b f)) (snd (copy_constructors ex s b f)) (move_constructor ex s b f)) :: t) w x q).
    { intros w q x IQ H. destruct (get_all_In enums a _ _ GB) as [G1 _]. destruct (G1 q IQ) as (y & Y1 & Y2). apply (get_offers enums a _ q y); auto. }
    assert (OF : forall w q x, holds_value s q -> (forall y, In y f -> can w x y = true) -> offers enums (a ++ (ic_name s, Items (default_constructor ex s b f)
          (destructor ex s b f) (fst (copy_constructors ex s b f)) (snd (copy_constructors ex s b f)) (move_constructor ex s b f)) :: t) w x q).
    { intros w q x IQ H. destruct (value_item enums a s f q GF IQ) as (y & Y1 & Y2). apply (get_offers enums a _ q y); auto. }
    destruct m; cbn [claimed] in CL; unfold implicit_default_needed, implicit_move_needed, implicit_copy_needed, implicit_dtor_needed in CL; cbn [i_default i_move i_dtor i_ccopy i_nccopy] in CL.
    + unfold default_constructor in CL. match type of CL with context[if ?c then _ else _] => destruct c end; [|now rewrite explicit_not_implicit in CL].
      match type of CL with context[if ?c then _ else _] => destruct c eqn:E end; [|discriminate].
      apply andb_true_iff in E. destruct E as [E EF]. apply andb_true_iff in E. destruct E as [_ EB]. rewrite forallb_forall in EB, EF.
      split; intros q IQ; split.
      * apply OB; auto. intros y Y. specialize (EB y Y). apply andb_true_iff in EB. now destruct EB.
      * apply OB; auto. intros y Y. specialize (EB y Y). apply andb_true_iff in EB. now destruct EB.
      * apply OF; auto. intros y Y. specialize (EF y Y). apply andb_true_iff in EF. now destruct EF.
      * intros _. apply OF; auto. intros y Y. specialize (EF y Y). apply andb_true_iff in EF. now destruct EF.
    + unfold move_constructor in CL. match type of CL with context[if ?c then _ else _] => destruct c end; [|now rewrite explicit_not_implicit in CL].
      match type of CL with context[if ?c then _ else _] => destruct c eqn:E end; [|discriminate].
      apply andb_true_iff in E. destruct E as [EB EF]. rewrite forallb_forall in EB, EF. split; intros q IQ; split.
      * apply OB; auto. intros y Y. specialize (EB y Y). apply andb_true_iff in EB. now destruct EB.
      * apply OB; auto. intros y Y. specialize (EB y Y). apply andb_true_iff in EB. now destruct EB.
      * apply OF; auto.
      * intros H. now destruct H.
    + unfold copy_constructors in CL. destruct (absent ex (ic_name s) EkConstCopy && absent ex (ic_name s) EkNonConstCopy);
        [|cbn [fst snd] in CL; rewrite !explicit_not_implicit in CL; discriminate].
      match type of CL with context[if ?c then _ else (NotPresent, NotPresent)] => destruct c eqn:E end; [|discriminate].
      apply andb_true_iff in E. destruct E as [E EF]. apply andb_true_iff in E. destruct E as [_ EB]. rewrite forallb_forall in EB, EF.
      split; intros q IQ; split.
      * apply OB; auto. intros y Y. specialize (EB y Y). apply andb_true_iff in EB. now destruct EB.
      * apply OB; auto. intros y Y. specialize (EB y Y). apply andb_true_iff in EB. now destruct EB.
      * apply OF; auto. intros y Y. specialize (EF y Y). apply andb_true_iff in EF. now destruct EF.
      * intros _. apply OF; auto. intros y Y. specialize (EF y Y). apply andb_true_iff in EF. now destruct EF.
    + unfold destructor in CL. match type of CL with context[if ?c then _ else _] => destruct c end; [|now rewrite explicit_not_implicit in CL].
      match type of CL with context[if ?c then _ else _] => destruct c eqn:E end; [|discriminate].
      apply andb_true_iff in E. destruct E as [EB EF]. rewrite forallb_forall in EB, EF.
      split; intros q IQ; split; try intros _; first [now apply OB|now apply OF].
  - right. destruct m; auto; exfalso; cbn [claimed] in CL; revert CL;
      unfold implicit_default_needed, implicit_move_needed, implicit_copy_needed, explicits_only; cbn [i_default i_move i_ccopy i_nccopy];
      rewrite !explicit_not_implicit; discriminate.
Qed.

Lemma entry_at ex unknown enums s after : forall before a res, find_all ex unknown enums (before ++ s :: after) a = Some res -> ic_considered s = true ->
  exists a' t i, res = a' ++ (ic_name s, i) :: t /\ items_of ex unknown enums a' s = Some i /\ map fst a' = map fst a ++ considered_names before.
Proof.
  assert (PRE : forall l a r, find_all ex unknown enums l a = Some r -> exists t, r = a ++ t).
  { induction l as [|x l IH]; cbn [find_all]; intros a r E; [exists []; rewrite app_nil_r; congruence|].
    destruct (ic_considered x); [|auto]. destruct (items_of ex unknown enums a x); [|discriminate].
    destruct (qget (ic_name x) a); [discriminate|]. destruct (IH _ _ E) as [t ->]. rewrite <- app_assoc. eauto. }
  induction before as [|x l IH]; cbn [find_all app]; intros a res E C.
  - rewrite C in E. destruct (items_of ex unknown enums a s) as [i|] eqn:IT; [|discriminate].
    destruct (qget (ic_name s) a) eqn:Q; [discriminate|]. destruct (PRE _ _ _ E) as [t ->]. exists a, t, i.
    rewrite <- app_assoc. cbn. rewrite app_nil_r. auto.
  - unfold considered_names. cbn [filter]. destruct (ic_considered x); [|eauto]. destruct (items_of ex unknown enums a x) as [i|]; [|discriminate].
    destruct (qget (ic_name x) a); [discriminate|]. destruct (IH _ _ E C) as (a' & t & j & R & I & N). exists a', t, j. split; [auto|]. split; [auto|].
    rewrite N, map_app, <- app_assoc. reflexivity.
Qed.

(** C18: if all parts of a class are known, its destructor too is synthesised only if all of them can be
    destroyed. *)
Theorem c18_known_parts_destructible : forall fns enums before s after res i,
  find_constructors_present fns enums (before ++ s :: after) = Some res -> ic_considered s = true -> In (ic_name s, i) res ->
  (forall t, In t (ic_bases s) \/ holds_value s t -> In t enums \/ constructor_details t <> None \/ looked_at before t) ->
  (forall f, In f (ic_fields s) -> match fi_kind f with TkRegular => exists t, holds_value (IcStruct (ic_name s) NonPod [] [f] 0 false false) t
                                   | TkSubclassHolder _ => False | _ => True end) ->
  (forall f, In f fns -> sf_for f = ic_name s -> sf_assign f = true -> sf_ok f = true) ->
  In (ic_name s, SmDtor) (synthesized false (fun _ => false) [(ic_name s, i)]) ->
  (forall b, In b (ic_bases s) -> offers enums res FromSubclass SmDtor b) /\ (forall t, holds_value s t -> offers enums res FromAnyone SmDtor t).
Proof.
  intros fns enums before s after res i F CS IR PK FK OK SY. unfold find_constructors_present in F.
  destruct (find_explicit_items fns [] []) as [[ex u]|] eqn:FE; [|discriminate].
  destruct (synthesized_claimed _ _ _ _ _ SY) as (j & [J|[]] & CL). injection J as <-.
  destruct (entry_at ex u enums s after before [] res F CS) as (a & t & i' & RES & IT & NM).
  assert (i' = i).
  { apply (nodup_pair res (ic_name s)); auto; [apply (nodup_find ex u enums (before ++ s :: after) [] res F); constructor|].
    rewrite RES. apply in_or_app. right. now left. }
  subst i'. pose (prog := Program [] enums). apply (items_cases prog ex u a s i) in IT. cbn [p_enums prog] in IT.
  assert (K : forall q, In q (ic_bases s) \/ holds_value s q -> get_items_found enums a q <> None).
  { intros q P N. unfold get_items_found in N. destruct (PK q P) as [E|[E|(s' & I' & C' & N')]].
    - apply qmem_In in E. rewrite E in N. discriminate.
    - destruct (qmem q enums); [discriminate|]. destruct (constructor_details q); [discriminate|]. now apply E.
    - destruct (qmem q enums); [discriminate|]. destruct (constructor_details q); [discriminate|]. apply qget_None in N. apply N. rewrite NM.
      apply in_map_iff. exists s'. split; [auto|]. now apply filter_In. }
  destruct IT as [(b & f & GB & GF & QU & ->)|[U ->]].
  - cbn [claimed] in CL. unfold implicit_dtor_needed, destructor in CL. cbn [i_dtor] in CL.
    match type of CL with context[if ?c then _ else _] => destruct c end; [|now rewrite explicit_not_implicit in CL].
    match type of CL with context[if ?c then _ else _] => destruct c eqn:E end; [|discriminate].
    apply andb_true_iff in E. destruct E as [EB EF]. rewrite forallb_forall in EB, EF. rewrite RES. split.
    + intros q IQ. destruct (get_all_In enums a _ _ GB) as [G1 _]. destruct (G1 q IQ) as (y & Y1 & Y2).
      apply (get_offers enums a _ q y); [auto|]. now apply EB.
    + intros q IQ. destruct (value_item enums a s f q GF IQ) as (y & Y1 & Y2). apply (get_offers enums a _ q y); [auto|]. now apply EF.
  - exfalso. destruct U as [U|[U|U]].
    + apply get_all_none in U. destruct U as (q & I & N). now apply (K q (or_introl I)).
    + apply fields_items_none in U. destruct U as (g & I & N). specialize (FK g I). unfold field_items in N.
      destruct (fi_kind g) eqn:GK; try discriminate; [|destruct FK].
      destruct FK as (q & x & [<-|[]] & _ & R).
      assert (HV : holds_value s q) by (exists g; auto).
      destruct R as [R|(t' & n & E & R)]; destruct (refers_path _ _ R) as (l & id & ar & E2 & E3).
      * rewrite E2, E3 in N. injection N as N. now apply (K q (or_intror HV)).
      * rewrite E, E2, E3 in N. injection N as N. now apply (K q (or_intror HV)).
    + apply qmem_In in U. apply (fei_unknown fns [] [] ex u (ic_name s) FE) in U. destruct U as [[]|(g & I & E & CO)].
      specialize (OK g I E). unfold contributes in CO.
      destruct (sf_kind g) as [[]| |[]|]; try discriminate; destruct (sf_assign g); try discriminate; rewrite (OK eq_refl) in CO;
        destruct (sf_rvalue g); try discriminate; destruct (sf_receiver g) as [[]|]; discriminate.
Qed.

(** C18: a class with an unknown base or member, or with an assignment operator which could not be
    analysed, gets nothing but a destructor. *)
Theorem c18_unknown_parts_destructor_only : forall fns enums structs res s i m,
  find_constructors_present fns enums structs = Some res -> In s structs -> ic_considered s = true -> In (ic_name s, i) res ->
  (exists t, (In t (ic_bases s) \/ holds_value s t) /\ unheard_of enums res t) \/
  (exists f k, In f fns /\ sf_for f = ic_name s /\ (sf_kind f = SkOtherMethod \/ sf_kind f = SkConstructor k) /\ sf_assign f = true /\ sf_ok f = false) ->
  In (ic_name s, m) (synthesized false (fun _ => false) [(ic_name s, i)]) -> m = SmDtor.
Proof.
  intros fns enums structs res s i m F IS CS IR H SY. assert (F0 := F). unfold find_constructors_present in F.
  destruct (find_explicit_items fns [] []) as [[ex u]|] eqn:FE; [|discriminate].
  destruct (synthesized_claimed _ _ _ _ _ SY) as (j & [J|[]] & CL). injection J as <-.
  destruct (entry_of ex u enums structs [] res s F IS CS) as (a & t & i' & RES & IT & Q).
  assert (i' = i).
  { apply (nodup_pair res (ic_name s)); auto; [apply (nodup_find ex u enums structs [] res F); constructor|].
    rewrite RES. apply in_or_app. right. now left. }
  subst i'. pose (prog := Program [] enums).
  apply (items_cases prog ex u a s i) in IT.
  destruct IT as [(b & f & GB & GF & QU & ->)|[U ->]]; cbn [p_enums prog] in *.
  - exfalso.
    assert (UN : forall q x, unheard_of enums res q -> get_items_found enums a q = Some x -> False).
    { intros q x (U1 & U2 & U3) G. unfold get_items_found in G. rewrite U2 in G.
      destruct (qmem q enums) eqn:E; [now apply U1, qmem_In|]. apply qget_In in G. apply (U3 x). rewrite RES. apply in_or_app. now left. }
    destruct H as [(q & [B|B] & UH)|(g & k & I & SF & KI & AS & OK)].
    + destruct (get_all_In enums a _ _ GB) as [G1 _]. destruct (G1 q B) as (y & _ & Y). now apply (UN q y).
    + destruct (value_item enums a s f q GF B) as (y & _ & Y). now apply (UN q y).
    + apply qmem_nIn in QU. apply QU. apply (fei_unknown fns [] [] ex u _ FE). right. exists g. split; [auto|]. split; [auto|].
      unfold contributes. destruct KI as [-> | ->]; now rewrite AS, OK.
  - destruct m; auto; exfalso; cbn [claimed] in CL; revert CL;
      unfold implicit_default_needed, implicit_move_needed, implicit_copy_needed, explicits_only; cbn [i_default i_move i_ccopy i_nccopy];
      rewrite !explicit_not_implicit; discriminate.
Qed.

(** The class [Der] of the case above, and a class with an unknown base. *)
Example c18_nonvacuous : exists res,
  find_constructors_present nv_fns (p_enums nv_prog) (nv_structs ++ [plain "U" [tn "Nowhere"] []]) = Some res /\
  In (tn "Der", Items Implicit Implicit Implicit NotPresent NotPresent) res /\ unheard_of (p_enums nv_prog) res (tn "Nowhere") /\
  In (tn "U", Items NotPresent Implicit NotPresent NotPresent NotPresent) res.
Proof.
  eexists. split; [vm_compute; reflexivity|]. cbn. split; [tauto|]. split; [|tauto]. split; [intros [H|[]]; discriminate|].
  split; [vm_compute; reflexivity|]. intros i H. repeat (destruct H as [H|H]; [discriminate|]). exact H.
Qed.

Print Assumptions c17_default_and_destructor_partial.
Print Assumptions c17_copy_partial.
Print Assumptions c17_move_partial.
Print Assumptions c17_public_members_partial.
Print Assumptions c17_nonconst_copy_refuted.
Print Assumptions c17_member_destructor_refuted.
Print Assumptions c17_unknown_destructor_refuted.
Print Assumptions c18_parts_offer_it.
Print Assumptions c18_unknown_parts_destructor_only.
Print Assumptions c18_known_parts_destructible.
