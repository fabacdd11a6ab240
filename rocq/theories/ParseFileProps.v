(** What parsing a file gives and what is generated from it (C38, C39, C72). *)
From Verif Require Import Base ConfigModel DiscoverModel DiscoverProps EngineModel ParseFileModel.
Local Open Scope list_scope.

(** ** Notions *)

(** What a file holds, in order: [include_cpp!] blocks and [cxx::bridge] modules, at any depth of modules. *)
Inductive source := SrcBlock (ts : list tok) | SrcBridge (id : string).
Fixpoint sources (i : item) : list source :=
  match i with
  | IMacro last body => if String.eqb last "include_cpp" then [SrcBlock body] else []
  | IMod true id _ => [SrcBridge id]
  | IMod false _ (Some l) => flat_map sources l
  | _ => []
  end.

(** An item of a file, with the modules around it. *)
Inductive at_item : list string -> list item -> list string -> item -> Prop :=
| ai_here p l i : In i l -> at_item p l p i
| ai_mod p l id l' p' i : In (IMod false id (Some l')) l -> at_item (p ++ [id]) l' p' i -> at_item p l p' i.
(** The tree which is searched for an item. *)
Definition searched (i : item) : option node :=
  match i with
  | INode n => Some n
  | IStruct id ex _ => Some (Node (KStruct ex id) [])
  | _ => None
  end.
Definition mp_of (p : list string) : option rust_path := match p with [] => None | _ => Some p end.

Section Found.
Variable ws : self_type -> signature -> signature.
(** What the search (C48, C70) finds in the items of a file. *)
Definition found_in {A} (field : discoveries -> list A) (items : list item) (x : A) : Prop :=
  exists p i n d, at_item [] items p i /\ searched i = Some n /\ search ws (mp_of p) None n no_discoveries = Ok d /\ In x (field d).
End Found.
(** A struct with a subclass attribute which names a superclass. *)
Definition found_super (items : list item) (s : subclass) : Prop :=
  exists p id ex attrs l1 a l2 ts o sup, at_item [] items p (IStruct id ex attrs)
    /\ attrs = l1 ++ a :: l2 /\ (forall b, In b l1 -> at_last b <> "is_subclass" /\ at_last b <> "subclass")
    /\ (at_last a = "is_subclass" \/ at_last a = "subclass") /\ at_form a = AttrList ts
    /\ parse_subclass_attrs false None ts = Some (o, Some sup) /\ s = SubC sup id.

(** A block may be given more than it has: names on the allowlist, subclasses, Rust types and functions. *)
Definition allow_grown (a a' : allowlist) : Prop :=
  match a with
  | AAll => a' = AAll
  | ASpecific l => exists m, a' = ASpecific (l ++ m)
  | AUnspecified _ => a' = a \/ exists m, a' = ASpecific m
  end.
Definition grown (e0 e : engine) : Prop :=
  en_state e = en_state e0 /\
  exists a subs tys funs, allow_grown (cf_allowlist (en_config e0)) a /\
    en_config e = set_rust_types (fun l => l ++ tys) (set_extern_rust_funs (fun l => l ++ funs) (set_allowlist a (set_subclasses (fun l => l ++ subs) (en_config e0)))).
Definition made (s : source) (b : cpp_buildable) : Prop :=
  match s, b with
  | SrcBlock ts, BEngine e => exists e0, engine_parse ts = Done e0 /\ grown e0 e
  | SrcBridge i, BCxx j => i = j
  | _, _ => False
  end.
Definition made_exactly (s : source) (b : cpp_buildable) : Prop :=
  match s, b with
  | SrcBlock ts, BEngine e => engine_parse ts = Done e
  | SrcBridge i, BCxx j => i = j
  | _, _ => False
  end.
Definition engines_of (l : list cpp_buildable) : list engine :=
  flat_map (fun b => match b with BEngine e => [e] | BCxx _ => [] end) l.
(** The blocks which are not in modules. *)
Definition top_level (l : list segment) : list engine :=
  flat_map (fun s => match s with SAutocxx e => [e] | _ => [] end) l.

(** ** Lemmas *)

Fixpoint item_ind' (P : item -> Prop)
  (HM : forall l b, P (IMacro l b)) (HN : forall b id, P (IMod b id None))
  (HS : forall b id l, Forall P l -> P (IMod b id (Some l)))
  (HT : forall id e a, P (IStruct id e a)) (HO : forall n, P (INode n)) (i : item) : P i :=
  match i with
  | IMacro l b => HM l b
  | IMod b id None => HN b id
  | IMod b id (Some l) =>
      HS b id l ((fix go (l : list item) : Forall P l :=
        match l with [] => Forall_nil _ | i :: l' => Forall_cons _ (item_ind' P HM HN HS HT HO i) (go l') end) l)
  | IStruct id e a => HT id e a
  | INode n => HO n
  end.

Lemma parse_item_mod ws auto mp id l st :
  parse_item ws auto mp (IMod false id (Some l)) st
  = match parse_items ws auto (Some (deeper_path mp id)) l empty_state with
    | POk ms => POk (PState (ps_results st ++ [SMod (ps_results ms)]) (ps_supers st ++ ps_supers ms) (extend (ps_disc st) (ps_disc ms)))
    | e => e
    end.
Proof.
  cbn [parse_item].
  assert (G : forall l st, (fix parse_items (l : list item) (st : pstate) :=
        match l with
        | [] => POk st
        | i :: l' =>
            match parse_item ws auto (Some (deeper_path mp id)) i st with
            | POk st' => parse_items l' st'
            | e => e
            end
        end) l st = parse_items ws auto (Some (deeper_path mp id)) l st).
  { clear. induction l as [|i l IH]; intros st; [reflexivity|]. cbn. destruct (parse_item ws auto (Some (deeper_path mp id)) i st); [apply IH|reflexivity|reflexivity]. }
  rewrite G. reflexivity.
Qed.

Definition subclass_dec (a b : subclass) : {a = b} + {a <> b}.
Proof. decide equality; apply string_dec. Defined.

Section Parse.
Variable ws : self_type -> signature -> signature.
Variable auto : bool.

(** The search adds to what there was what it finds when started with nothing. *)
Lemma search_from mp n d d' : search ws mp None n d = Ok d' ->
  exists d0, search ws mp None n no_discoveries = Ok d0
    /\ (forall x, In x (d_cpp d') <-> In x (d_cpp d) \/ In x (d_cpp d0))
    /\ (forall x, In x (d_funs d') <-> In x (d_funs d) \/ In x (d_funs d0))
    /\ (forall x, In x (d_types d') <-> In x (d_types d) \/ In x (d_types d0)).
Proof.
  intros H. assert (A := search_spec ws n mp None d). rewrite H in A. destruct A as (A1 & A2 & A3 & A4).
  assert (B := search_spec ws n mp None no_discoveries). destruct (search ws mp None n no_discoveries) as [d0|e].
  - destruct B as (B1 & B2 & B3 & _). exists d0. split; [reflexivity|]. split; [|split]; intros x.
    + rewrite A1, B1. cbn. tauto.
    + rewrite A2, B2. cbn. tauto.
    + rewrite A3, B3. cbn. tauto.
  - destruct B as (m & v & k & R & S). rewrite (A4 m v k R) in S. discriminate S.
Qed.

Lemma extend_cpp d o x : In x (d_cpp (extend d o)) <-> In x (d_cpp d) \/ In x (d_cpp o).
Proof.
  unfold extend. cbn [d_cpp]. generalize (d_cpp d) as a. induction (d_cpp o) as [|s l IH]; intros a; cbn [fold_left In]; [tauto|].
  rewrite IH, set_insert_In. intuition.
Qed.

(** What one item, or a list of items, adds. *)
Definition i_found {A} (field : discoveries -> list A) (p : list string) (l : list item) (x : A) : Prop :=
  exists p' i n d, at_item p l p' i /\ searched i = Some n /\ search ws (mp_of p') None n no_discoveries = Ok d /\ In x (field d).
Definition i_super (p : list string) (l : list item) (s : subclass) : Prop :=
  exists p' id ex attrs l1 a l2 ts o sup, at_item p l p' (IStruct id ex attrs)
    /\ attrs = l1 ++ a :: l2 /\ (forall b, In b l1 -> at_last b <> "is_subclass" /\ at_last b <> "subclass")
    /\ (at_last a = "is_subclass" \/ at_last a = "subclass") /\ at_form a = AttrList ts
    /\ parse_subclass_attrs false None ts = Some (o, Some sup) /\ s = SubC sup id.
Definition adds (p : list string) (l : list item) (st st' : pstate) : Prop :=
  (forall x, In x (d_cpp (ps_disc st')) <-> In x (d_cpp (ps_disc st)) \/ i_found d_cpp p l x)
  /\ (forall x, In x (d_funs (ps_disc st')) <-> In x (d_funs (ps_disc st)) \/ i_found d_funs p l x)
  /\ (forall x, In x (d_types (ps_disc st')) <-> In x (d_types (ps_disc st)) \/ i_found d_types p l x)
  /\ (forall x, In x (ps_supers st') <-> In x (ps_supers st) \/ i_super p l x)
  /\ exists segs, ps_results st' = ps_results st ++ segs /\ Forall2 made_exactly (flat_map sources l) (flat_map seg_buildables segs).

Lemma at_item_cons p i l p' j : at_item p (i :: l) p' j <-> at_item p [i] p' j \/ at_item p l p' j.
Proof.
  split.
  - intros H. inversion H; subst.
    + destruct H0 as [->|I]; [left|right]; constructor; [left; reflexivity|exact I].
    + destruct H0 as [E|I]; [left|right]; eapply ai_mod; [left; exact E|eassumption|exact I|eassumption].
  - intros [H|H]; inversion H; subst.
    + destruct H0 as [->|[]]. constructor. left. reflexivity.
    + destruct H0 as [E|[]]. eapply ai_mod; [left; exact E|eassumption].
    + constructor. right. exact H0.
    + eapply ai_mod; [right; exact H0|eassumption].
Qed.
Lemma i_found_cons {A} (f : discoveries -> list A) p i l x : i_found f p (i :: l) x <-> i_found f p [i] x \/ i_found f p l x.
Proof.
  unfold i_found. split.
  - intros (p' & j & n & d & H & R). apply at_item_cons in H as [H|H]; [left|right]; exists p', j, n, d; auto.
  - intros [(p' & j & n & d & H & R)|(p' & j & n & d & H & R)]; exists p', j, n, d; (split; [apply at_item_cons; auto|exact R]).
Qed.
Lemma i_super_cons p i l x : i_super p (i :: l) x <-> i_super p [i] x \/ i_super p l x.
Proof.
  unfold i_super. split.
  - intros (p' & id & ex & at' & l1 & a & l2 & ts & o & sup & H & R). apply at_item_cons in H as [H|H]; [left|right]; exists p', id, ex, at', l1, a, l2, ts, o, sup; auto.
  - intros [(p' & id & ex & at' & l1 & a & l2 & ts & o & sup & H & R)|(p' & id & ex & at' & l1 & a & l2 & ts & o & sup & H & R)];
      exists p', id, ex, at', l1, a, l2, ts, o, sup; (split; [apply at_item_cons; auto|exact R]).
Qed.
Lemma at_item_one p i p' j : at_item p [i] p' j -> (p' = p /\ j = i) \/ exists id l, i = IMod false id (Some l) /\ at_item (p ++ [id]) l p' j.
Proof.
  intros H. inversion H; subst.
  - destruct H0 as [E|[]]. left; auto.
  - destruct H0 as [E|[]]. right; eauto.
Qed.
Lemma i_found_nil {A} (f : discoveries -> list A) p x : ~ i_found f p [] x.
Proof. intros (p' & j & n & d & H & _). inversion H; subst; destruct H0. Qed.
Lemma i_super_nil p x : ~ i_super p [] x.
Proof. intros (p' & id & ex & at' & l1 & a & l2 & ts & o & sup & H & _). inversion H; subst; destruct H0. Qed.
(** Items which are no modules. *)
Lemma i_found_leaf {A} (f : discoveries -> list A) p i x : (forall id l, i <> IMod false id (Some l)) ->
  (i_found f p [i] x <-> exists n d, searched i = Some n /\ search ws (mp_of p) None n no_discoveries = Ok d /\ In x (f d)).
Proof.
  intros NM. split.
  - intros (p' & j & n & d & H & S & R). apply at_item_one in H as [[-> ->]|(id & l & E & _)]; [eauto|destruct (NM id l E)].
  - intros (n & d & S & R). exists p, i, n, d. split; [constructor; left; reflexivity|auto].
Qed.

Lemma discover_adds p n st st' i :
  searched i = Some n -> (forall id l, i <> IMod false id (Some l)) -> sources i = [] ->
  forall st0, discover ws (mp_of p) n st = POk st' ->
  ps_disc st = ps_disc st0 -> ps_results st = ps_results st0 ->
  (forall x, In x (ps_supers st) <-> In x (ps_supers st0) \/ i_super p [i] x) ->
  adds p [i] st0 st'.
Proof.
  intros S NM NS st0 D E1 E2 E3. unfold discover in D. destruct (search ws (mp_of p) None n (ps_disc st)) as [d|e] eqn:SE; [|destruct e; discriminate D].
  injection D as <-. apply search_from in SE as (d0 & S0 & A & B & C). rewrite E1 in A, B, C. unfold adds. cbn [ps_disc ps_results ps_supers].
  assert (L : forall {A} (f : discoveries -> list A) x, i_found f p [i] x <-> In x (f d0)).
  { intros T f x. rewrite (i_found_leaf f p i x NM). split; [intros (n' & d' & S' & R & I)|eauto].
    rewrite S in S'. injection S' as <-. rewrite S0 in R. injection R as <-. exact I. }
  split; [intros x; rewrite A, L; tauto|]. split; [intros x; rewrite B, L; tauto|]. split; [intros x; rewrite C, L; tauto|]. split; [exact E3|].
  exists [SOther]. split; [rewrite E2; reflexivity|]. cbn. rewrite NS. constructor.
Qed.

Lemma find_first {A} (f : A -> bool) l a : find f l = Some a -> exists l1 l2, l = l1 ++ a :: l2 /\ f a = true /\ forall b, In b l1 -> f b = false.
Proof.
  induction l as [|b l IH]; [discriminate|]. cbn. destruct (f b) eqn:E.
  - intros H. injection H as <-. exists [], l. split; [reflexivity|]. split; [exact E|]. intros x [].
  - intros H. destruct (IH H) as (l1 & l2 & -> & F & N). exists (b :: l1), l2. split; [reflexivity|]. split; [exact F|].
    intros x [<-|I]; [exact E|exact (N x I)].
Qed.
Lemma subclass_attr_true a : is_subclass_attr a = true <-> at_last a = "is_subclass" \/ at_last a = "subclass".
Proof. unfold is_subclass_attr. rewrite orb_true_iff, !String.eqb_eq. reflexivity. Qed.
Lemma subclass_attr_false a : is_subclass_attr a = false <-> at_last a <> "is_subclass" /\ at_last a <> "subclass".
Proof.
  destruct (is_subclass_attr a) eqn:E.
  - apply subclass_attr_true in E. split; [discriminate|]. intuition.
  - split; [intros _|reflexivity]. split; intros X; assert (is_subclass_attr a = true) by (apply subclass_attr_true; auto); congruence.
Qed.
(** The first attribute with a property is unique. *)
Lemma first_unique {A} (f : A -> bool) l1 a l2 k1 b k2 : l1 ++ a :: l2 = k1 ++ b :: k2 ->
  f a = true -> f b = true -> (forall x, In x l1 -> f x = false) -> (forall x, In x k1 -> f x = false) -> a = b.
Proof.
  revert k1. induction l1 as [|x l1 IH]; intros k1 E Fa Fb N M.
  - destruct k1 as [|y k1]; [injection E as -> _; reflexivity|]. injection E as -> _. rewrite (M y (or_introl eq_refl)) in Fa. discriminate Fa.
  - destruct k1 as [|y k1].
    + injection E as -> _. rewrite (N b (or_introl eq_refl)) in Fb. discriminate Fb.
    + injection E as -> E. apply (IH k1 E Fa Fb); intros z I; [apply N|apply M]; right; exact I.
Qed.

Lemma struct_superclass_adds p id ex attrs st st' : struct_superclass auto id attrs st = POk st' ->
  ps_disc st' = ps_disc st /\ ps_results st' = ps_results st
  /\ (forall x, In x (ps_supers st') <-> In x (ps_supers st) \/ i_super p [IStruct id ex attrs] x)
  /\ (ps_supers st' <> ps_supers st -> auto = true).
Proof.
  unfold struct_superclass. intros H.
  assert (INV : forall x, i_super p [IStruct id ex attrs] x ->
    exists a ts o sup, find is_subclass_attr attrs = Some a /\ at_form a = AttrList ts /\ parse_subclass_attrs false None ts = Some (o, Some sup) /\ x = SubC sup id).
  { intros x (p' & id' & ex' & at' & l1 & a & l2 & ts & o & sup & AI & E & N & IS & F & PS & ->).
    apply at_item_one in AI as [[-> AI]|(? & ? & X & _)]; [|discriminate X]. injection AI as -> -> ->.
    exists a, ts, o, sup. split; [|auto]. rewrite E. clear - N IS. induction l1 as [|b l1 IH].
    - cbn. rewrite (proj2 (subclass_attr_true a) IS). reflexivity.
    - cbn. rewrite (proj2 (subclass_attr_false b) (N b (or_introl eq_refl))). apply IH. intros c I. exact (N c (or_intror I)). }
  destruct (find is_subclass_attr attrs) as [a|] eqn:FI.
  - destruct (at_form a) as [|ts|] eqn:AF; [|destruct (parse_subclass_attrs false None ts) as [[o [sup|]]|] eqn:PS; [destruct auto| |]|]; try discriminate H; injection H as <-.
    + split; [reflexivity|]. split; [reflexivity|]. split; [|congruence]. intros x. split; [auto|]. intros [I|I]; [exact I|].
      apply INV in I as (a' & ts & o & sup & E & F & _). injection E as <-. congruence.
    + cbn. split; [reflexivity|]. split; [reflexivity|]. split; [|reflexivity]. intros x. rewrite in_app_iff. cbn. split.
      * intros [I|[<-|[]]]; [auto|]. right. apply find_first in FI as (l1 & l2 & E & F & N).
        exists p, id, ex, attrs, l1, a, l2, ts, o, sup. split; [constructor; left; reflexivity|]. split; [exact E|].
        split; [intros b I; apply subclass_attr_false, N, I|]. split; [apply subclass_attr_true, F|]. auto.
      * intros [I|I]; [auto|]. right. left. apply INV in I as (a' & ts' & o' & sup' & E & F & Q & ->). injection E as <-. rewrite AF in F. injection F as <-. rewrite PS in Q. injection Q as _ <-. reflexivity.
    + split; [reflexivity|]. split; [reflexivity|]. split; [|congruence]. intros x. split; [auto|]. intros [I|I]; [exact I|].
      apply INV in I as (a' & ts' & o' & sup' & E & F & Q & _). injection E as <-. rewrite AF in F. injection F as <-. rewrite PS in Q. discriminate Q.
  - injection H as <-. split; [reflexivity|]. split; [reflexivity|]. split; [|congruence]. intros x. split; [auto|]. intros [I|I]; [exact I|].
    apply INV in I as (a' & ts' & o' & sup' & E & _). discriminate E.
Qed.

Lemma not_super p i x : (forall id ex a, i <> IStruct id ex a) -> (forall id l, i <> IMod false id (Some l)) -> ~ i_super p [i] x.
Proof.
  intros NS NM (p' & id & ex & at' & l1 & a & l2 & ts & o & sup & AI & _).
  apply at_item_one in AI as [[_ E]|(id' & l & E & _)]; [exact (NS id ex at' (eq_sym E))|exact (NM id' l E)].
Qed.

Lemma mp_of_deeper p id : Some (deeper_path (mp_of p) id) = mp_of (p ++ [id]).
Proof. destruct p as [|a p]; [reflexivity|]. reflexivity. Qed.

Lemma nothing_found p i st : searched i = None -> (forall id l, i <> IMod false id (Some l)) -> (forall id ex a, i <> IStruct id ex a) ->
  forall st' segs, ps_disc st' = ps_disc st -> ps_supers st' = ps_supers st -> ps_results st' = ps_results st ++ segs ->
  Forall2 made_exactly (sources i) (flat_map seg_buildables segs) -> adds p [i] st st'.
Proof.
  intros S NM NS st' segs E1 E2 E3 F. unfold adds. rewrite E1, E2.
  assert (L : forall {A} (f : discoveries -> list A) x, ~ i_found f p [i] x).
  { intros A f x I. apply (i_found_leaf f p i x NM) in I as (n & d & X & _). congruence. }
  split; [intros x; split; [auto|intros [I|I]; [exact I|destruct (L _ _ _ I)]]|].
  split; [intros x; split; [auto|intros [I|I]; [exact I|destruct (L _ _ _ I)]]|].
  split; [intros x; split; [auto|intros [I|I]; [exact I|destruct (L _ _ _ I)]]|].
  split; [intros x; split; [auto|intros [I|I]; [exact I|destruct (not_super p i x NS NM I)]]|].
  exists segs. split; [exact E3|]. cbn. rewrite app_nil_r. exact F.
Qed.

Lemma parse_item_adds i : forall p st st', parse_item ws auto (mp_of p) i st = POk st' ->
  adds p [i] st st' /\ (exists seg, ps_results st' = ps_results st ++ [seg]) /\ (ps_supers st' <> ps_supers st -> auto = true).
Proof.
  induction i as [l b|b id|b id l IH|id e a|n] using item_ind'; intros p st st' H.
  - cbn [parse_item] in H. destruct (String.eqb l "include_cpp") eqn:E.
    + destruct (engine_parse b) as [g|x|] eqn:EP; try discriminate H. injection H as <-. split; [|split; [eexists; reflexivity|cbn; congruence]].
      eapply nothing_found; try reflexivity; try discriminate. cbn. rewrite E. constructor; [exact EP|constructor].
    + unfold discover in H. destruct (search ws (mp_of p) None (Node KOtherItem []) (ps_disc st)) as [d|x] eqn:SE; [|destruct x; discriminate H].
      cbn in SE. injection SE as <-. injection H as <-. split; [|split; [eexists; reflexivity|cbn; congruence]].
      eapply nothing_found; try reflexivity; try discriminate. cbn. rewrite E. constructor.
  - destruct b; cbn [parse_item] in H; injection H as <-; (split; [|split; [eexists; reflexivity|cbn; congruence]]);
      (eapply nothing_found; try reflexivity; try discriminate; cbn; repeat constructor).
  - destruct b.
    + cbn [parse_item] in H. injection H as <-. split; [|split; [eexists; reflexivity|cbn; congruence]].
      eapply nothing_found; try reflexivity; try discriminate. cbn. repeat constructor.
    + rewrite parse_item_mod, mp_of_deeper in H. destruct (parse_items ws auto (mp_of (p ++ [id])) l empty_state) as [ms|x|] eqn:PI; try discriminate H. injection H as <-.
      assert (G : forall l0 st0 st1, (forall i, In i l0 -> In i l) -> parse_items ws auto (mp_of (p ++ [id])) l0 st0 = POk st1 -> adds (p ++ [id]) l0 st0 st1 /\ (ps_supers st1 <> ps_supers st0 -> auto = true)).
      { clear PI ms. induction l0 as [|i l0 IHl]; intros st0 st1 Sub PI; cbn in PI.
        - injection PI as <-. split; [|congruence]. unfold adds.
          split; [intros x; split; [auto|intros [I|I]; [exact I|destruct (i_found_nil _ _ _ I)]]|].
          split; [intros x; split; [auto|intros [I|I]; [exact I|destruct (i_found_nil _ _ _ I)]]|].
          split; [intros x; split; [auto|intros [I|I]; [exact I|destruct (i_found_nil _ _ _ I)]]|].
          split; [intros x; split; [auto|intros [I|I]; [exact I|destruct (i_super_nil _ _ I)]]|].
          exists []. split; [rewrite app_nil_r; reflexivity|constructor].
        - destruct (parse_item ws auto (mp_of (p ++ [id])) i st0) as [st2|x|] eqn:PT; try discriminate PI.
          destruct (proj1 (Forall_forall _ _) IH i (Sub i (or_introl eq_refl)) _ _ _ PT) as ((A1 & A2 & A3 & A4 & segs & R & F) & _ & AU).
          destruct (IHl st2 st1 (fun j I => Sub j (or_intror I)) PI) as ((B1 & B2 & B3 & B4 & segs' & R' & F') & BU).
          split.
          + unfold adds.
            split; [intros x; rewrite B1, A1, (i_found_cons d_cpp (p ++ [id]) i l0 x); tauto|].
            split; [intros x; rewrite B2, A2, (i_found_cons d_funs (p ++ [id]) i l0 x); tauto|].
            split; [intros x; rewrite B3, A3, (i_found_cons d_types (p ++ [id]) i l0 x); tauto|].
            split; [intros x; rewrite B4, A4, (i_super_cons (p ++ [id]) i l0 x); tauto|].
            exists (segs ++ segs'). split; [rewrite R', R, app_assoc; reflexivity|]. cbn in F. rewrite app_nil_r in F. cbn [flat_map]. rewrite flat_map_app. apply Forall2_app; assumption.
          + intros N. destruct auto; [reflexivity|]. destruct N.
            destruct (list_eq_dec subclass_dec (ps_supers st2) (ps_supers st0)) as [<-|N]; [|discriminate (AU N)].
            destruct (list_eq_dec subclass_dec (ps_supers st1) (ps_supers st2)) as [E|N]; [exact E|discriminate (BU N)]. }
      destruct (G l empty_state ms (fun i I => I) PI) as ((A1 & A2 & A3 & A4 & segs & R & F) & AU).
      assert (L : forall {A} (f : discoveries -> list A) x, i_found f p [IMod false id (Some l)] x <-> i_found f (p ++ [id]) l x).
      { intros A f x. split.
        - intros (p' & j & n & d & AI & S & Q). apply at_item_one in AI as [[_ ->]|(id' & l' & E & AI)]; [discriminate S|]. injection E as <- <-. exists p', j, n, d. auto.
        - intros (p' & j & n & d & AI & S & Q). exists p', j, n, d. split; [eapply ai_mod; [left; reflexivity|exact AI]|auto]. }
      assert (LS : forall x, i_super p [IMod false id (Some l)] x <-> i_super (p ++ [id]) l x).
      { intros x. split.
        - intros (p' & id1 & ex & at' & l1 & a & l2 & ts & o & sup & AI & Q). apply at_item_one in AI as [[_ X]|(id' & l' & E & AI)]; [discriminate X|]. injection E as <- <-. exists p', id1, ex, at', l1, a, l2, ts, o, sup. auto.
        - intros (p' & id1 & ex & at' & l1 & a & l2 & ts & o & sup & AI & Q). exists p', id1, ex, at', l1, a, l2, ts, o, sup. split; [eapply ai_mod; [left; reflexivity|exact AI]|auto]. }
      split; [|split; [eexists; reflexivity|]].
      * unfold adds. cbn [ps_disc ps_supers ps_results].
        split; [intros x; rewrite extend_cpp, A1, L; cbn; tauto|].
        split; [intros x; unfold extend; cbn [d_funs]; rewrite in_app_iff, A2, L; cbn; tauto|].
        split; [intros x; unfold extend; cbn [d_types]; rewrite in_app_iff, A3, L; cbn; tauto|].
        split; [intros x; rewrite in_app_iff, A4, LS; cbn; tauto|].
        exists [SMod (ps_results ms)]. split; [reflexivity|]. cbn. rewrite !app_nil_r. rewrite R. exact F.
      * cbn [ps_supers]. intros N. apply AU. intros E. apply N. rewrite E. cbn. apply app_nil_r.
  - cbn [parse_item] in H. destruct (struct_superclass auto id a st) as [st1|x|] eqn:SS; try discriminate H.
    apply (struct_superclass_adds p id e) in SS as (E1 & E2 & E3 & E4).
    split; [|split].
    + eapply (discover_adds p _ st1 st' (IStruct id e a)); try reflexivity; try discriminate; eassumption.
    + unfold discover in H. destruct (search _ _ _ _ _) as [d|x]; [|destruct x; discriminate H]. injection H as <-. eexists. cbn. rewrite E2. reflexivity.
    + unfold discover in H. destruct (search _ _ _ _ _) as [d|x]; [|destruct x; discriminate H]. injection H as <-. exact E4.
  - cbn [parse_item] in H. split; [|split].
    + eapply (discover_adds p n st st' (INode n)); try reflexivity; try discriminate; [exact H|].
      intros x. split; [auto|]. intros [I|I]; [exact I|]. destruct (not_super p (INode n) x ltac:(discriminate) ltac:(discriminate) I).
    + unfold discover in H. destruct (search _ _ _ _ _) as [d|x]; [|destruct x; discriminate H]. injection H as <-. eexists. reflexivity.
    + unfold discover in H. destruct (search _ _ _ _ _) as [d|x]; [|destruct x; discriminate H]. injection H as <-. cbn. congruence.
Qed.

Lemma parse_items_adds l : forall p st st', parse_items ws auto (mp_of p) l st = POk st' -> adds p l st st' /\ (ps_supers st' <> ps_supers st -> auto = true).
Proof.
  induction l as [|i l IH]; intros p st st' PI; cbn in PI.
  - injection PI as <-. split; [|congruence]. unfold adds.
    split; [intros x; split; [auto|intros [I|I]; [exact I|destruct (i_found_nil _ _ _ I)]]|].
    split; [intros x; split; [auto|intros [I|I]; [exact I|destruct (i_found_nil _ _ _ I)]]|].
    split; [intros x; split; [auto|intros [I|I]; [exact I|destruct (i_found_nil _ _ _ I)]]|].
    split; [intros x; split; [auto|intros [I|I]; [exact I|destruct (i_super_nil _ _ I)]]|].
    exists []. split; [rewrite app_nil_r; reflexivity|constructor].
  - destruct (parse_item ws auto (mp_of p) i st) as [st2|x|] eqn:PT; try discriminate PI.
    destruct (parse_item_adds i _ _ _ PT) as ((A1 & A2 & A3 & A4 & segs & R & F) & _ & AU).
    destruct (IH p st2 st' PI) as ((B1 & B2 & B3 & B4 & segs' & R' & F') & BU).
    split.
    + unfold adds.
      split; [intros x; rewrite B1, A1, (i_found_cons d_cpp p i l x); tauto|].
      split; [intros x; rewrite B2, A2, (i_found_cons d_funs p i l x); tauto|].
      split; [intros x; rewrite B3, A3, (i_found_cons d_types p i l x); tauto|].
      split; [intros x; rewrite B4, A4, (i_super_cons p i l x); tauto|].
      exists (segs ++ segs'). split; [rewrite R', R, app_assoc; reflexivity|]. cbn in F. rewrite app_nil_r in F. cbn [flat_map]. rewrite flat_map_app. apply Forall2_app; assumption.
    + intros N. destruct auto; [reflexivity|]. destruct N.
      destruct (list_eq_dec subclass_dec (ps_supers st2) (ps_supers st)) as [<-|N]; [|discriminate (AU N)].
      destruct (list_eq_dec subclass_dec (ps_supers st') (ps_supers st2)) as [E|N]; [exact E|discriminate (BU N)].
Qed.
End Parse.

(** *** Blocks which are given more *)

Definition enlarge (a : allowlist) (subs : list subclass) (tys : list rust_path) (funs : list rust_fun) (c : config) : config :=
  set_rust_types (fun l => l ++ tys) (set_extern_rust_funs (fun l => l ++ funs) (set_allowlist a (set_subclasses (fun l => l ++ subs) c))).
Lemma enlarge_eta c a : a = cf_allowlist c -> enlarge a [] [] [] c = c.
Proof.
  intros ->. unfold enlarge. destruct c. unfold set_subclasses. cbn. rewrite app_nil_r. unfold set_allowlist. cbn.
  unfold set_extern_rust_funs. cbn. rewrite app_nil_r. unfold set_rust_types. cbn. rewrite app_nil_r. reflexivity.
Qed.
Lemma enlarge_allow c a : enlarge a [] [] [] c = set_allowlist a c.
Proof.
  unfold enlarge. destruct c. unfold set_subclasses. cbn. rewrite app_nil_r. unfold set_allowlist. cbn.
  unfold set_extern_rust_funs. cbn. rewrite app_nil_r. unfold set_rust_types. cbn. rewrite app_nil_r. reflexivity.
Qed.
Lemma enlarge_enlarge a u t n a' u' t' n' c : enlarge a' u' t' n' (enlarge a u t n c) = enlarge a' (u ++ u') (t ++ t') (n ++ n') c.
Proof.
  unfold enlarge. destruct c. 
  unfold set_subclasses at 2. cbn. unfold set_allowlist at 2. cbn. unfold set_extern_rust_funs at 2. cbn. unfold set_rust_types at 2. cbn.
  unfold set_subclasses. cbn. unfold set_allowlist. cbn. unfold set_extern_rust_funs. cbn. unfold set_rust_types. cbn. rewrite <- !app_assoc. reflexivity.
Qed.
Lemma grown_refl e : grown e e.
Proof.
  split; [reflexivity|]. exists (cf_allowlist (en_config e)), [], [], []. split; [|symmetry; apply enlarge_eta; reflexivity].
  unfold allow_grown. destruct (cf_allowlist (en_config e)); [auto|reflexivity|]. exists []. rewrite app_nil_r. reflexivity.
Qed.
Lemma allow_grown_trans a b c : allow_grown a b -> allow_grown b c -> allow_grown a c.
Proof.
  unfold allow_grown. destruct a as [l| |l].
  - intros [->|[m ->]]; [auto|]. intros [m' ->]. right. eauto.
  - intros -> ->. reflexivity.
  - intros [m ->] [m' ->]. exists (m ++ m'). rewrite app_assoc. reflexivity.
Qed.
Lemma grown_trans e f g : grown e f -> grown f g -> grown e g.
Proof.
  intros (S1 & a & u & t & n & A & C) (S2 & a' & u' & t' & n' & A' & C'). split; [congruence|].
  exists a', (u ++ u'), (t ++ t'), (n ++ n'). rewrite C in A'. change (cf_allowlist _) with a in A'. split; [exact (allow_grown_trans _ _ _ A A')|].
  rewrite C', C. apply enlarge_enlarge.
Qed.
Lemma complete_grown e : grown e (Engine (confirm_complete (en_config e)) (en_state e)).
Proof.
  split; [reflexivity|]. cbn [en_config]. unfold confirm_complete. destruct (cf_allowlist (en_config e)) as [l| |l] eqn:A.
  - exists (ASpecific []), [], [], []. split; [right; eauto|].
    symmetry. apply enlarge_allow.
  - exists AAll, [], [], []. split; [reflexivity|]. symmetry. apply enlarge_eta; auto.
  - exists (ASpecific l), [], [], []. split; [exists []; rewrite app_nil_r; reflexivity|]. symmetry. apply enlarge_eta; auto.
Qed.
Lemma push_all_ok l : forall a a', push_all l a = ROk a' ->
  match l with
  | [] => a' = a
  | _ => match a with AAll => False | AUnspecified m | ASpecific m => a' = ASpecific (m ++ map AItem l) end
  end.
Proof.
  induction l as [|s l IH]; intros a a' H; cbn in H; [injection H as <-; reflexivity|].
  destruct a as [m| |m]; cbn in H; [|discriminate H|]; unfold vpush in H; apply IH in H; (destruct l as [|t l]; [exact H|]; cbn [map app] in H; rewrite H, <- app_assoc; reflexivity).
Qed.
Lemma give_ok auto supers d e e' : give auto supers d e = POk e' ->
  grown e e' /\ en_state e = NotGenerated
  /\ cf_subclasses (en_config e') = cf_subclasses (en_config e) ++ supers
  /\ cf_extern_rust_funs (en_config e') = cf_extern_rust_funs (en_config e) ++ d_funs d
  /\ cf_rust_types (en_config e') = cf_rust_types (en_config e) ++ d_types d
  /\ (auto = true -> push_all (d_cpp d) (cf_allowlist (en_config e)) = ROk (cf_allowlist (en_config e')))
  /\ (auto = false -> cf_allowlist (en_config e') = cf_allowlist (en_config e)).
Proof.
  unfold give, config_mut. destruct (en_state e) eqn:S; try discriminate. cbn [en_config en_state].
  assert (AE : cf_allowlist (set_subclasses (fun l => l ++ supers) (en_config e)) = cf_allowlist (en_config e)) by reflexivity. rewrite AE.
  assert (CE : cf_allowlist (en_config e) = cf_allowlist (en_config e)) by reflexivity.
  destruct auto.
  - destruct (push_all (d_cpp d) (cf_allowlist (en_config e))) as [a|x|] eqn:P; try discriminate. intros H. injection H as <-. cbn [en_config en_state].
    split; [|split; [reflexivity|split; [reflexivity|split; [reflexivity|split; [reflexivity|split; [intros _; reflexivity|discriminate]]]]]].
    split; [cbn; congruence|]. exists a, supers, (d_types d), (d_funs d). split; [|reflexivity].
    apply push_all_ok in P. unfold allow_grown. destruct (d_cpp d) as [|s l].
    + subst a. destruct (cf_allowlist (en_config e)); [auto|reflexivity|]. exists []. rewrite app_nil_r. reflexivity.
    + destruct (cf_allowlist (en_config e)) as [m| |m]; [right; eauto|contradiction|]. eauto.
  - intros H. injection H as <-. cbn [en_config en_state].
    split; [|split; [reflexivity|split; [reflexivity|split; [reflexivity|split; [reflexivity|split; [discriminate|intros _; reflexivity]]]]]].
    split; [cbn; congruence|]. exists (cf_allowlist (en_config e)), supers, (d_types d), (d_funs d). split; [|reflexivity].
    unfold allow_grown. destruct (cf_allowlist (en_config e)); [auto|reflexivity|]. exists []. rewrite app_nil_r. reflexivity.
Qed.

Lemma give_first_ok auto supers d l : forall l', give_first auto supers d l = POk l' ->
  exists l1 e e' l2, l = l1 ++ SAutocxx e :: l2 /\ l' = l1 ++ SAutocxx e' :: l2 /\ top_level l1 = [] /\ top_level l2 = [] /\ give auto supers d e = POk e'.
Proof.
  induction l as [|s l IH]; intros l' H; [discriminate H|].
  assert (R : (match give_first auto supers d l with POk r => POk (s :: r) | e => e end = POk l' /\ top_level [s] = []) \/ (exists e, s = SAutocxx e)).
  { destruct s; [right; eauto| | |]; left; split; try exact H; reflexivity. }
  destruct R as [[R T]|[e ->]].
  - destruct (give_first auto supers d l) as [r|x|] eqn:G; try discriminate R. injection R as <-.
    destruct (IH r eq_refl) as (l1 & e & e' & l2 & -> & -> & T1 & T2 & GV). exists (s :: l1), e, e', l2. split; [reflexivity|]. split; [reflexivity|].
    split; [|auto]. change (top_level (s :: l1)) with (top_level ([s] ++ l1)). unfold top_level in *. rewrite flat_map_app, T, T1. reflexivity.
  - cbn in H. destruct (give auto supers d e) as [e'|x|] eqn:G; try discriminate H. destruct (existsb is_autocxx l) eqn:X; [discriminate H|]. injection H as <-.
    exists [], e, e', l. split; [reflexivity|]. split; [reflexivity|]. split; [reflexivity|]. split; [|exact G].
    clear - X. induction l as [|s l IH]; [reflexivity|]. cbn in X. apply orb_false_iff in X as [X1 X2]. unfold top_level in *. cbn. rewrite (IH X2). destruct s; [discriminate X1|reflexivity|reflexivity|reflexivity].
Qed.

(** *** The whole file *)

Definition must_handle (auto : bool) (st : pstate) : bool :=
  found_rust (ps_disc st) || negb (match ps_supers st with [] => true | _ => false end) || (auto && found_allowlist (ps_disc st)).
Lemma file_shape ws auto items pf : parse_file_contents ws auto items = POk pf ->
  exists st, parse_items ws auto None items empty_state = POk st /\
   ((must_handle auto st = false /\ pf = map complete (ps_results st))
    \/ must_handle auto st = true /\ exists fake l1 e e' l2,
         (fake = [] /\ top_level (ps_results st) <> [] \/ fake = [SAutocxx new_for_autodiscover] /\ top_level (ps_results st) = [])
         /\ ps_results st ++ fake = l1 ++ SAutocxx e :: l2 /\ pf = map complete (l1 ++ SAutocxx e' :: l2)
         /\ top_level l1 = [] /\ top_level l2 = [] /\ give auto (ps_supers st) (ps_disc st) e = POk e').
Proof.
  unfold parse_file_contents. destruct (parse_items ws auto None items empty_state) as [st|x|] eqn:PI; try discriminate.
  fold (must_handle auto st). intros H. exists st. split; [reflexivity|].
  destruct (must_handle auto st); [|injection H as <-; left; auto]. right. split; [reflexivity|].
  assert (X : existsb is_autocxx (ps_results st) = true <-> top_level (ps_results st) <> []).
  { clear. induction (ps_results st) as [|s l IH]; [cbn; intuition congruence|]. cbn. destruct s; cbn; [intuition discriminate|exact IH|exact IH|exact IH]. }
  destruct (existsb is_autocxx (ps_results st)) eqn:EX.
  - destruct (give_first auto (ps_supers st) (ps_disc st) (ps_results st)) as [l|x|] eqn:G; try discriminate H. injection H as <-.
    apply give_first_ok in G as (l1 & e & e' & l2 & E & -> & T1 & T2 & GV). exists [], l1, e, e', l2. rewrite app_nil_r.
    split; [left; split; [reflexivity|apply X; reflexivity]|]. auto.
  - destruct (give_first auto (ps_supers st) (ps_disc st) (ps_results st ++ [SAutocxx new_for_autodiscover])) as [l|x|] eqn:G; try discriminate H. injection H as <-.
    apply give_first_ok in G as (l1 & e & e' & l2 & E & -> & T1 & T2 & GV). exists [SAutocxx new_for_autodiscover], l1, e, e', l2.
    split; [right; split; [reflexivity|]|auto]. destruct (top_level (ps_results st)); [reflexivity|]. assert (false = true) by (apply X; discriminate). discriminate.
Qed.

Definition grown_b (b b' : cpp_buildable) : Prop :=
  match b, b' with BEngine e, BEngine e' => grown e e' | BCxx i, BCxx j => i = j | _, _ => False end.
Lemma grown_b_refl l : Forall2 grown_b l l.
Proof. induction l as [|b l IH]; constructor; [destruct b; cbn; [apply grown_refl|reflexivity]|exact IH]. Qed.
Lemma complete_buildables l : Forall2 grown_b (flat_map seg_buildables l) (flat_map seg_buildables (map complete l)).
Proof.
  induction l as [|s l IH]; [constructor|]. cbn [map flat_map]. apply Forall2_app; [|exact IH]. destruct s; try apply grown_b_refl.
  constructor; [apply complete_grown|constructor].
Qed.
Lemma made_grown ss bs : Forall2 made ss bs -> forall bs', Forall2 grown_b bs bs' -> Forall2 made ss bs'.
Proof.
  induction 1 as [|s b ss bs M F IH]; intros bs' G; inversion G as [|x b' y bs2 GB GR]; subst; [constructor|]. constructor; [|exact (IH _ GR)].
  destruct s, b, b'; cbn [made grown_b] in *; try contradiction; [|congruence]. destruct M as (ep & EP & GE). exists ep. split; [exact EP|]. eapply grown_trans; eassumption.
Qed.
Lemma exactly_made ss bs : Forall2 made_exactly ss bs -> Forall2 made ss bs.
Proof. induction 1 as [|s b ss bs M F IH]; constructor; [|exact IH]. destruct s, b; cbn in *; try contradiction; [exists e; split; [exact M|apply grown_refl]|exact M]. Qed.
Lemma engines_of_buildables l : get_autocxxes l = engines_of (get_cpp_buildables l).
Proof.
  unfold get_autocxxes, get_cpp_buildables.
  assert (G : forall s, seg_autocxxes s = engines_of (seg_buildables s)).
  { fix IH 1. intros [e|id|m|]; try reflexivity. cbn [seg_autocxxes seg_buildables]. unfold engines_of.
    induction m as [|s m IHm]; [reflexivity|]. cbn [flat_map]. rewrite flat_map_app, IHm. f_equal. exact (IH s). }
  unfold engines_of. induction l as [|s l IH]; [reflexivity|]. cbn [flat_map]. rewrite flat_map_app, IH, G. reflexivity.
Qed.

(** ** C38 *)

(** Every block and every bridge, at any depth of modules, is there once and in order; a block which was not written
    by the user comes last, and there is at most one. *)
Theorem c38_every_block_once :
  forall ws auto items pf, parse_file_contents ws auto items = POk pf ->
    exists bs fake, get_cpp_buildables pf = bs ++ map BEngine fake
      /\ Forall2 made (flat_map sources items) bs
      /\ (fake = [] \/ exists e, fake = [e] /\ grown new_for_autodiscover e)
      /\ get_autocxxes pf = engines_of bs ++ fake.
Proof.
  intros ws auto items pf H. apply file_shape in H as (st & PI & SH).
  destruct (parse_items_adds ws auto items [] empty_state st PI) as ((_ & _ & _ & _ & segs & R & F) & _). cbn in R. rewrite <- R in F. clear R segs.
  apply exactly_made in F.
  assert (G : exists bs fake, get_cpp_buildables pf = bs ++ map BEngine fake /\ Forall2 made (flat_map sources items) bs
      /\ (fake = [] \/ exists e, fake = [e] /\ grown new_for_autodiscover e)).
  { destruct SH as [[_ ->]|(_ & fake & l1 & e & e' & l2 & FK & E & -> & T1 & T2 & GV)].
    - exists (get_cpp_buildables (map complete (ps_results st))), []. cbn. rewrite app_nil_r. split; [reflexivity|]. split; [|auto].
      exact (made_grown _ _ F _ (complete_buildables _)).
    - apply give_ok in GV as (GR & _).
      assert (GG : Forall2 grown_b (flat_map seg_buildables (l1 ++ SAutocxx e :: l2)) (get_cpp_buildables (map complete (l1 ++ SAutocxx e' :: l2)))).
      { unfold get_cpp_buildables. rewrite map_app, !flat_map_app. apply Forall2_app; [apply complete_buildables|]. cbn [map flat_map complete seg_buildables app].
        constructor; [exact (grown_trans _ _ _ GR (complete_grown e'))|apply complete_buildables]. }
      rewrite <- E, flat_map_app in GG. apply Forall2_app_inv_l in GG as (bs & fs & G1 & G2 & EQ).
      destruct FK as [[-> _]|[-> _]]; cbn in G2.
      + inversion G2; subst fs. exists bs, []. split; [exact EQ|]. split; [exact (made_grown _ _ F _ G1)|auto].
      + inversion G2 as [|x b' y bs2 GB GE]; subst. inversion GE; subst. destruct b' as [f|]; [|destruct GB]. exists bs, [f].
        split; [exact EQ|]. split; [exact (made_grown _ _ F _ G1)|]. right. eauto. }
  destruct G as (bs & fake & E & M & FK). exists bs, fake. split; [exact E|]. split; [exact M|]. split; [exact FK|].
  rewrite engines_of_buildables, E. unfold engines_of. rewrite flat_map_app. f_equal. destruct FK as [->|(e & -> & _)]; reflexivity.
Qed.
Print Assumptions c38_every_block_once.

Lemma resolve_spec gen : forall s found s' found' o, resolve_seg gen s found = (s', found', o) ->
  match o with
  | POk _ => NoDup (map (fun e => get_mod_name (en_config e)) (seg_autocxxes s)) /\ (forall m, In m found -> ~ In m (map (fun e => get_mod_name (en_config e)) (seg_autocxxes s)))
             /\ (forall m, In m found' <-> In m found \/ In m (map (fun e => get_mod_name (en_config e)) (seg_autocxxes s)))
             /\ Forall2 (fun e e' => exists u, gen e = (e', Done u)) (seg_autocxxes s) (seg_autocxxes s')
  | PErr PConflictingModNames => ~ (NoDup (map (fun e => get_mod_name (en_config e)) (seg_autocxxes s)) /\ (forall m, In m found -> ~ In m (map (fun e => get_mod_name (en_config e)) (seg_autocxxes s))))
  | PErr x => exists e e' y, In e (seg_autocxxes s) /\ gen e = (e', Fails y) /\ x = PCodegen y
  | PPanic => exists e e', In e (seg_autocxxes s) /\ gen e = (e', Panics)
  end.
Proof.
  set (names := fun s => map (fun e => get_mod_name (en_config e)) (seg_autocxxes s)).
  set (Q := fun (engs engs' : list engine) (found found' : list string) (o : pres unit) =>
    let nm := map (fun e => get_mod_name (en_config e)) engs in
    match o with
    | POk _ => NoDup nm /\ (forall m, In m found -> ~ In m nm) /\ (forall m, In m found' <-> In m found \/ In m nm)
             /\ Forall2 (fun e e' => exists u, gen e = (e', Done u)) engs engs'
    | PErr PConflictingModNames => ~ (NoDup nm /\ (forall m, In m found -> ~ In m nm))
    | PErr x => exists e e' y, In e engs /\ gen e = (e', Fails y) /\ x = PCodegen y
    | PPanic => exists e e', In e engs /\ gen e = (e', Panics)
    end).
  assert (CONS : forall e1 e1' f f1 e2 e2' f2 o, Q e1 e1' f f1 (POk tt) -> Q e2 e2' f1 f2 o -> Q (e1 ++ e2) (e1' ++ e2') f f2 o).
  { intros e1 e1' f f1 e2 e2' f2 o (N1 & D1 & I1 & F1) H. unfold Q in *. cbn zeta in *. rewrite map_app. destruct o as [u|x|].
    - destruct H as (N2 & D2 & I2 & F2). split.
      + apply NoDup_app_intro; [exact N1|exact N2|]. intros m A B. apply (D2 m); [|exact B]. apply I1. auto.
      + split; [|split].
        * intros m I A. apply in_app_iff in A as [A|A]; [exact (D1 m I A)|]. apply (D2 m); [apply I1; auto|exact A].
        * intros m. rewrite I2, I1, in_app_iff. tauto.
        * apply Forall2_app; assumption.
    - destruct x; cbn match in H |- *; try (match type of H with ex _ => idtac end; destruct H as (en & en' & y & I & G & X); exists en, en', y; rewrite in_app_iff; auto).
      intros [N D]. apply NoDup_app_inv in N as (_ & N & DD). apply H. split; [exact N|].
      intros m I A. apply I1 in I as [I|I]; [apply (D m I); apply in_app_iff; auto|]. exact (DD m I A).
    - destruct H as (e & e' & I & G). exists e, e'. rewrite in_app_iff. auto. }
  assert (STOP : forall e1 e1' f f1 e2 o, (o <> POk tt) -> Q e1 e1' f f1 o -> Q (e1 ++ e2) (e1' ++ e2) f f1 o).
  { intros e1 e1' f f1 e2 o NO H. unfold Q in *. cbn zeta in *. rewrite map_app. destruct o as [[]|x|]; [congruence| |].
    - destruct x; cbn match in H |- *; try (match type of H with ex _ => idtac end; destruct H as (en & en' & y & I & G & X); exists en, en', y; rewrite in_app_iff; auto).
      intros [N D]. apply H. split.
      + apply NoDup_app_inv in N. tauto.
      + intros m I A. apply (D m I), in_app_iff. auto.
    - destruct H as (e & e' & I & G). exists e, e'. rewrite in_app_iff. auto. }
  assert (NIL : forall f, Q [] [] f f (POk tt)).
  { intros f. split; [constructor|]. split; [intros m _ []|]. split; [intros m; cbn; tauto|constructor]. }
  change (forall s found s' found' o, resolve_seg gen s found = (s', found', o) -> Q (seg_autocxxes s) (seg_autocxxes s') found found' o).
  fix IH 1. intros [e|id|l|] found s' found' o H.
  - cbn in H. destruct (smem (get_mod_name (en_config e)) found) eqn:M.
    + injection H as <- <- <-. cbn. apply smem_In in M. intros [_ D]. apply (D _ M). left. reflexivity.
    + assert (NM : ~ In (get_mod_name (en_config e)) found) by (intros I; apply smem_In in I; congruence).
      destruct (gen e) as [e' [u|x|]] eqn:G; injection H as <- <- <-; cbn.
      * split; [constructor; [intros []|constructor]|]. split; [intros m I [<-|[]]; contradiction|]. split; [intros m; cbn; tauto|]. constructor; [eauto|constructor].
      * exists e, e', x. auto.
      * exists e, e'. auto.
  - injection H as <- <- <-. apply NIL.
  - cbn [resolve_seg] in H.
    assert (L : forall l found r f' o, (fix resolve_segs (l : list segment) (found : list string) : list segment * list string * pres unit :=
        match l with
        | [] => ([], found, POk tt)
        | s :: l' =>
            match resolve_seg gen s found with
            | (s', f, POk _) => let '(r, f', o) := resolve_segs l' f in (s' :: r, f', o)
            | (s', f, e) => (s' :: l', f, e)
            end
        end) l found = (r, f', o) -> Q (flat_map seg_autocxxes l) (flat_map seg_autocxxes r) found f' o).
    { clear H l. induction l as [|s l IHl]; intros f r f' o' H; [injection H as <- <- <-; apply NIL|].
      destruct (resolve_seg gen s f) as [[s1 f1] o1] eqn:RS. apply IH in RS. destruct o1 as [[]|x|].
      - match type of H with (let '(_, _) := ?t in _) = _ => destruct t as [[r2 f2] o2] eqn:R2 end. injection H as <- <- <-.
        cbn [flat_map]. eapply CONS; [exact RS|]. exact (IHl _ _ _ _ R2).
      - injection H as <- <- <-. cbn [flat_map]. apply STOP; [discriminate|exact RS].
      - injection H as <- <- <-. cbn [flat_map]. apply STOP; [discriminate|exact RS]. }
    match type of H with (let '(_, _) := ?t in _) = _ => destruct t as [[r2 f2] o2] eqn:R2 end. injection H as <- <- <-. exact (L _ _ _ _ _ R2).
  - injection H as <- <- <-. apply NIL.
Qed.

Lemma resolve_segs_mod gen l found : resolve_seg gen (SMod l) found = let '(r, f, o) := resolve_segs gen l found in (SMod r, f, o).
Proof.
  cbn [resolve_seg].
  assert (G : forall l found, (fix resolve_segs (l : list segment) (found : list string) : list segment * list string * pres unit :=
        match l with
        | [] => ([], found, POk tt)
        | s :: l' =>
            match resolve_seg gen s found with
            | (s', f, POk _) => let '(r, f', o) := resolve_segs l' f in (s' :: r, f', o)
            | (s', f, e) => (s' :: l', f, e)
            end
        end) l found = resolve_segs gen l found).
  { clear. induction l as [|s l IH]; intros found; [reflexivity|]. cbn [resolve_segs]. destruct (resolve_seg gen s found) as [[s' f] [u|x|]]; [|reflexivity|reflexivity]. rewrite IH. reflexivity. }
  rewrite G. reflexivity.
Qed.
Definition names (l : list engine) : list string := map (fun e => get_mod_name (en_config e)) l.
Lemma resolve_all_spec gen l :
  match resolve_all gen l with
  | (l', POk _) => NoDup (names (get_autocxxes l)) /\ Forall2 (fun e e' => exists u, gen e = (e', Done u)) (get_autocxxes l) (get_autocxxes l')
  | (_, PErr PConflictingModNames) => ~ NoDup (names (get_autocxxes l))
  | (_, PErr x) => exists e e' y, In e (get_autocxxes l) /\ gen e = (e', Fails y) /\ x = PCodegen y
  | (_, PPanic) => exists e e', In e (get_autocxxes l) /\ gen e = (e', Panics)
  end.
Proof.
  unfold resolve_all. assert (M := resolve_segs_mod gen l []). destruct (resolve_segs gen l []) as [[r f] o] eqn:R. apply resolve_spec in M. cbn [seg_autocxxes] in M.
  fold (get_autocxxes l) in M. fold (get_autocxxes r) in M. fold (names (get_autocxxes l)) in M. destruct o as [u|x|]; [destruct M as (A & _ & _ & B); auto| |exact M].
  destruct x; try exact M. intros N. apply M. split; [exact N|intros m []].
Qed.

(** When the generation for a file succeeds, it was done once for every block, and no two blocks make modules of the same name. *)
Theorem c38_names_distinct :
  forall gen l l' u, resolve_all gen l = (l', POk u) ->
    NoDup (names (get_autocxxes l)) /\ Forall2 (fun e e' => exists u, gen e = (e', Done u)) (get_autocxxes l) (get_autocxxes l').
Proof. intros gen l l' u H. assert (S := resolve_all_spec gen l). rewrite H in S. exact S. Qed.
Print Assumptions c38_names_distinct.

(** A repeated name is an error, and it is reported as such when nothing else goes wrong; a file without repeated names is never blamed for them. *)
Theorem c38_repeated_names :
  forall gen l,
    (NoDup (names (get_autocxxes l)) -> snd (resolve_all gen l) <> PErr PConflictingModNames)
    /\ (~ NoDup (names (get_autocxxes l)) ->
         snd (resolve_all gen l) <> POk tt
         /\ ((forall e, In e (get_autocxxes l) -> exists e', gen e = (e', Done tt)) -> snd (resolve_all gen l) = PErr PConflictingModNames)).
Proof.
  intros gen l. assert (S := resolve_all_spec gen l). destruct (resolve_all gen l) as [l' o]. cbn [snd]. split.
  - intros N ->. exact (S N).
  - intros N. split; [intros ->; destruct S as [S _]; exact (N S)|]. intros D. destruct o as [u|x|].
    + destruct S as [S _]. destruct (N S).
    + destruct x; try reflexivity; destruct S as (en & en' & y & I & G & X); destruct (D en I) as [z Z]; congruence.
    + destruct S as (en & en' & I & G). destruct (D en I) as [z Z]. congruence.
Qed.
Print Assumptions c38_repeated_names.

(** Blocks of different names are written to different files. Names are identifiers: they have no hyphen. *)
Definition no_hyphen (s : string) : Prop := all_chars (fun c => negb (Ascii.eqb c "-")) s = true.
Lemma all_chars_app p a b : all_chars p (a +++ b) = all_chars p a && all_chars p b.
Proof. induction a as [|c a IH]; [reflexivity|]. cbn. rewrite IH, andb_assoc. reflexivity. Qed.
Theorem c38_files_distinct :
  forall gen l l' u, resolve_all gen l = (l', POk u) ->
    (forall e m, In e (get_autocxxes l) -> cf_mod_name (en_config e) = Some m -> no_hyphen m) ->
    NoDup (map (fun e => get_rs_filename (en_config e)) (get_autocxxes l)).
Proof.
  intros gen l l' u H ID. destruct (c38_names_distinct _ _ _ _ H) as [N _]. clear H. unfold names in N. revert N ID. induction (get_autocxxes l) as [|e es IH]; intros N ID; [constructor|].
  cbn in N. inversion N as [|x y NI N']; subst. cbn. constructor; [|apply IH; [exact N'|intros f m I; apply ID; right; exact I]].
  intros I. apply NI. apply in_map_iff in I as (f & E & I). apply in_map_iff. exists f. split; [|exact I].
  unfold get_rs_filename in E. cbn in E. injection E as E.
  assert (ID1 := fun m => ID e m (or_introl eq_refl)). assert (ID2 := fun m => ID f m (or_intror I)).
  unfold get_mod_name. destruct (cf_mod_name (en_config f)) as [m|], (cf_mod_name (en_config e)) as [m'|]; try reflexivity;
    apply sapp_inj_r in E.
  - exact E.
  - subst m. specialize (ID2 _ eq_refl). discriminate ID2.
  - subst m'. specialize (ID1 _ eq_refl). discriminate ID1.
Qed.
Print Assumptions c38_files_distinct.

Definition blocks_case (n1 n2 : string) : list item :=
  [IMacro "include_cpp" [TIdent "generate_all"; TBang; TGroup []];
   IMod false "a" (Some [IMod true "bridge" None; IMod false "b" (Some [IMacro "include_cpp" [TIdent "name"; TBang; TGroup [TIdent n1]; TIdent "generate_all"; TBang; TGroup []]])]);
   IMacro "include_cpp" [TIdent "name"; TBang; TGroup [TIdent n2]; TIdent "generate_all"; TBang; TGroup []]].
Definition gen_ok (e : engine) : engine * outcome unit := (Engine (en_config e) (Generated (Generation (get_mod_name (en_config e)) "" None [] "")), Done tt).
Example c38_case :
  exists pf pf', parse_file_contents (fun _ s => s) true (blocks_case "x" "y") = POk pf
    /\ names (get_autocxxes pf) = ["ffi"; "x"; "y"] /\ List.length (get_cpp_buildables pf) = 4
    /\ resolve_all gen_ok pf = (pf', POk tt)
    /\ map (fun e => get_rs_filename (en_config e)) (get_autocxxes pf) = ["autocxx-ffi-default-gen.rs"; "autocxx-x-gen.rs"; "autocxx-y-gen.rs"].
Proof. eexists _, _. split; [vm_compute; reflexivity|]. split; [vm_compute; reflexivity|]. split; [vm_compute; reflexivity|]. split; vm_compute; reflexivity. Qed.
Example c38_repeated_case :
  exists pf, parse_file_contents (fun _ s => s) true (blocks_case "x" "x") = POk pf
    /\ ~ NoDup (names (get_autocxxes pf)) /\ snd (resolve_all gen_ok pf) = PErr PConflictingModNames.
Proof.
  eexists. split; [vm_compute; reflexivity|]. split; [|vm_compute; reflexivity].
  vm_compute. intros N. inversion N as [|a b _ N' E]; subst. inversion N' as [|a b NI _ E]; subst. apply NI. left. reflexivity.
Qed.

(** ** C72 *)

(** What stands for each item of a file. A block in a module is exactly what its text says. *)
Definition stands_for (i : item) (s : segment) : Prop :=
  match i with
  | IMacro "include_cpp" body => exists e, engine_parse body = Done e /\ s = SAutocxx e
  | IMod true id _ => s = SCxx id
  | IMod false id (Some l) => exists m, s = SMod m /\ Forall2 made_exactly (flat_map sources l) (get_cpp_buildables m)
  | _ => s = SOther
  end.
Lemma stands_macro last body s : stands_for (IMacro last body) s <->
  if String.eqb last "include_cpp" then exists e, engine_parse body = Done e /\ s = SAutocxx e else s = SOther.
Proof.
  destruct (String.eqb_spec last "include_cpp") as [->|N]; [cbn; tauto|].
  enough (stands_for (IMacro last body) s = (s = SOther)) as -> by tauto. unfold stands_for.
  repeat (match goal with |- context [match ?x with _ => _ end] => destruct x; try reflexivity end). destruct N. reflexivity.
Qed.
Lemma discover_seg ws mp n st st' : discover ws mp n st = POk st' -> ps_results st' = ps_results st ++ [SOther].
Proof. unfold discover. destruct (search ws mp None n (ps_disc st)) as [d|x]; [|destruct x; discriminate]. intros H. injection H as <-. reflexivity. Qed.
Lemma parse_item_stands ws auto p i st st' : parse_item ws auto (mp_of p) i st = POk st' -> exists s, ps_results st' = ps_results st ++ [s] /\ stands_for i s.
Proof.
  intros H. destruct i as [last body|[|] id [l|]|id ex attrs|n].
  - cbn [parse_item] in H. destruct (String.eqb last "include_cpp") eqn:E.
    + destruct (engine_parse body) as [e|x|] eqn:EP; try discriminate H. injection H as <-. eexists. split; [reflexivity|]. apply stands_macro. rewrite E. eauto.
    + apply discover_seg in H. eexists. split; [exact H|]. apply stands_macro. rewrite E. reflexivity.
  - injection H as <-. eexists. split; reflexivity.
  - injection H as <-. eexists. split; reflexivity.
  - rewrite parse_item_mod, mp_of_deeper in H. destruct (parse_items ws auto (mp_of (p ++ [id])) l empty_state) as [ms|x|] eqn:PI; try discriminate H. injection H as <-.
    destruct (parse_items_adds ws auto l _ _ _ PI) as ((_ & _ & _ & _ & segs & R & F) & _). cbn in R.
    eexists. split; [reflexivity|]. cbn. exists (ps_results ms). split; [reflexivity|]. rewrite R. exact F.
  - injection H as <-. eexists. split; reflexivity.
  - cbn [parse_item] in H. destruct (struct_superclass auto id attrs st) as [st1|x|] eqn:SS; try discriminate H. apply discover_seg in H. rewrite H.
    exists SOther. split; [|reflexivity]. f_equal. unfold struct_superclass in SS.
    destruct (find is_subclass_attr attrs) as [a|]; [|injection SS as <-; reflexivity].
    destruct (at_form a) as [|ts|]; [injection SS as <-; reflexivity| |discriminate SS].
    destruct (parse_subclass_attrs false None ts) as [[o [sup|]]|]; [|injection SS as <-; reflexivity|discriminate SS].
    destruct auto; [injection SS as <-; reflexivity|discriminate SS].
  - apply discover_seg in H. eexists. split; [exact H|reflexivity].
Qed.
Lemma parse_items_stand ws auto p l : forall st st', parse_items ws auto (mp_of p) l st = POk st' -> exists segs, ps_results st' = ps_results st ++ segs /\ Forall2 stands_for l segs.
Proof.
  induction l as [|i l IH]; intros st st' H; cbn in H.
  - injection H as <-. exists []. rewrite app_nil_r. split; [reflexivity|constructor].
  - destruct (parse_item ws auto (mp_of p) i st) as [st1|x|] eqn:PI; try discriminate H. apply parse_item_stands in PI as (s & R & S). apply IH in H as (segs & R' & F).
    exists (s :: segs). split; [rewrite R', R, <- app_assoc; reflexivity|constructor; assumption].
Qed.

Lemma and_assoc_r (A B C : Prop) : (A /\ B /\ C) <-> ((A /\ B) /\ C).
Proof. tauto. Qed.
(** At the end a block whose allowlist nobody has mentioned gets an empty one, if it is not in a module. *)
Definition decided (s s' : segment) : Prop :=
  match s with
  | SAutocxx e => exists c, s' = SAutocxx (Engine c (en_state e)) /\
      match cf_allowlist (en_config e) with
      | AUnspecified _ => c = set_allowlist (ASpecific []) (en_config e)
      | _ => c = en_config e
      end
  | _ => s' = s
  end.
Lemma complete_decided l : Forall2 decided l (map complete l).
Proof.
  induction l as [|s l IH]; constructor; [|exact IH]. destruct s; cbn; try reflexivity. exists (confirm_complete (en_config e)). split; [reflexivity|].
  unfold confirm_complete. destruct (cf_allowlist (en_config e)); reflexivity.
Qed.
Lemma no_supers_auto ws items st : parse_items ws false None items empty_state = POk st -> ps_supers st = [].
Proof.
  intros PI. destruct (parse_items_adds ws false items [] empty_state st PI) as [_ S].
  destruct (list_eq_dec subclass_dec (ps_supers st) []) as [E|N]; [exact E|]. discriminate (S N).
Qed.

Definition something (ws : self_type -> signature -> signature) (auto : bool) (items : list item) : Prop :=
  (exists x, found_in ws d_funs items x) \/ (exists x, found_in ws d_types items x) \/ (exists x, found_super items x)
  \/ (auto = true /\ exists x, found_in ws d_cpp items x).

(** The items marked for C++, the superclasses and (when asked for) the uses of C++ names which are found anywhere in the file all go
    to one block which is not in a module: the only such block of the file, or a new one at the end if there is none. The
    other parts of that block's configuration, and everything else in the file, are as written. *)
Theorem c72_discoveries_go_to_one_block :
  forall ws auto items pf, parse_file_contents ws auto items = POk pf ->
    exists segs, Forall2 stands_for items segs /\
    ((forall x, ~ found_in ws d_funs items x) /\ (forall x, ~ found_in ws d_types items x) /\ (forall x, ~ found_super items x)
      /\ (auto = true -> forall x, ~ found_in ws d_cpp items x) /\ Forall2 decided segs pf
     \/ exists fake l1 e e' l2 supers cpp,
         (fake = [] \/ fake = [SAutocxx new_for_autodiscover] /\ top_level segs = [])
         /\ segs ++ fake = l1 ++ SAutocxx e :: l2 /\ top_level l1 = [] /\ top_level l2 = []
         /\ Forall2 decided (l1 ++ SAutocxx e' :: l2) pf
         /\ en_state e = NotGenerated
         /\ (forall x, In x supers <-> found_super items x)
         /\ (forall x, In x cpp <-> auto = true /\ found_in ws d_cpp items x)
         /\ grown e e'
         /\ cf_subclasses (en_config e') = cf_subclasses (en_config e) ++ supers
         /\ (exists funs, cf_extern_rust_funs (en_config e') = cf_extern_rust_funs (en_config e) ++ funs /\ forall x, In x funs <-> found_in ws d_funs items x)
         /\ (exists tys, cf_rust_types (en_config e') = cf_rust_types (en_config e) ++ tys /\ forall x, In x tys <-> found_in ws d_types items x)
         /\ (cpp = [] -> cf_allowlist (en_config e') = cf_allowlist (en_config e))
         /\ (cpp <> [] -> exists m, (cf_allowlist (en_config e) = ASpecific m \/ cf_allowlist (en_config e) = AUnspecified m)
                          /\ cf_allowlist (en_config e') = ASpecific (m ++ map AItem cpp))
         /\ something ws auto items).
Proof.
  intros ws auto items pf H. apply file_shape in H as (st & PI & SH).
  destruct (parse_items_stand ws auto [] items _ _ PI) as (segs & R & ST). cbn in R. subst segs.
  destruct (parse_items_adds ws auto items [] empty_state st PI) as ((A1 & A2 & A3 & A4 & _) & AU). cbn in A1, A2, A3, A4.
  assert (B1 : forall x, In x (d_cpp (ps_disc st)) <-> found_in ws d_cpp items x) by (intros x; rewrite A1; unfold i_found, found_in; tauto).
  assert (B2 : forall x, In x (d_funs (ps_disc st)) <-> found_in ws d_funs items x) by (intros x; rewrite A2; unfold i_found, found_in; tauto).
  assert (B3 : forall x, In x (d_types (ps_disc st)) <-> found_in ws d_types items x) by (intros x; rewrite A3; unfold i_found, found_in; tauto).
  assert (B4 : forall x, In x (ps_supers st) <-> found_super items x) by (intros x; rewrite A4; unfold i_super, found_super; tauto).
  clear A1 A2 A3 A4. exists (ps_results st). split; [exact ST|]. destruct SH as [[M ->]|(M & fake & l1 & e & e' & l2 & FK & E & -> & T1 & T2 & GV)].
  - left. unfold must_handle in M. apply orb_false_iff in M as [M1 M2]. apply orb_false_iff in M1 as [M0 M1].
    unfold found_rust in M0. destruct (d_funs (ps_disc st)) eqn:DF; [|destruct (d_types (ps_disc st)); discriminate M0].
    destruct (d_types (ps_disc st)) eqn:DT; [|discriminate M0]. destruct (ps_supers st) eqn:DS; [|discriminate M1].
    split; [intros x I; destruct (proj2 (B2 x) I)|]. split; [intros x I; destruct (proj2 (B3 x) I)|]. split; [intros x I; destruct (proj2 (B4 x) I)|].
    split; [|apply complete_decided]. intros -> x I. unfold found_allowlist in M2. cbn in M2. apply B1 in I. destruct (d_cpp (ps_disc st)); [destruct I|discriminate M2].
  - right. apply give_ok in GV as (GR & NG & G1 & G2 & G3 & G4 & G5).
    exists fake, l1, e, e', l2, (ps_supers st), (if auto then d_cpp (ps_disc st) else []).
    split; [destruct FK as [[-> _]|F]; auto|]. split; [exact E|]. split; [exact T1|]. split; [exact T2|]. split; [apply complete_decided|]. split; [exact NG|].
    split; [exact B4|]. split; [intros x; destruct auto; [rewrite B1; tauto|cbn; split; [tauto|intros [X _]; discriminate X]]|].
    split; [exact GR|]. split; [exact G1|]. split; [eauto|]. split; [eauto|].
    rewrite and_assoc_r. split.
    + destruct auto.
      * specialize (G4 eq_refl). apply push_all_ok in G4. destruct (d_cpp (ps_disc st)) as [|s l]; [split; [intros _; exact G4|congruence]|].
        split; [discriminate|]. intros _. destruct (cf_allowlist (en_config e)) as [m| |m]; [|contradiction|]; exists m; auto.
      * split; [intros _; exact (G5 eq_refl)|congruence].
    + unfold must_handle in M. apply orb_true_iff in M as [M|M]; [apply orb_true_iff in M as [M|M]|].
      * unfold found_rust in M. destruct (d_funs (ps_disc st)) as [|x fs]; [|left; exists x; apply B2; left; reflexivity].
        destruct (d_types (ps_disc st)) as [|x ts]; [discriminate M|]. right. left. exists x. apply B3. left. reflexivity.
      * destruct (ps_supers st) as [|x ss]; [discriminate M|]. right. right. left. exists x. apply B4. left. reflexivity.
      * apply andb_true_iff in M as [-> M]. right. right. right. split; [reflexivity|]. unfold found_allowlist in M. destruct (d_cpp (ps_disc st)) as [|x xs]; [discriminate M|]. exists x. apply B1. left. reflexivity.
Qed.
Print Assumptions c72_discoveries_go_to_one_block.


(** A block is only given something if it is the only one which is not in a module. *)
Theorem c72_one_top_level_block :
  forall ws auto items pf, parse_file_contents ws auto items = POk pf ->
    something ws auto items -> exists e, top_level pf = [e].
Proof.
  intros ws auto items pf H F. destruct (c72_discoveries_go_to_one_block _ _ _ _ H) as (segs & _ & [(N1 & N2 & N3 & N4 & _)|(fake & l1 & e & e' & l2 & supers & cpp & _ & _ & T1 & T2 & D & _)]).
  - destruct F as [[x I]|[[x I]|[[x I]|[A [x I]]]]]; [destruct (N1 x I)|destruct (N2 x I)|destruct (N3 x I)|destruct (N4 A x I)].
  - assert (G : forall a b, Forall2 decided a b -> top_level a = [] -> top_level b = []).
    { induction 1 as [|s s' a b DS F2 IH]; [reflexivity|]. unfold top_level. cbn. destruct s; cbn in DS; [discriminate| | |]; subst s'; cbn; exact IH. }
    apply Forall2_app_inv_l in D as (b1 & b2 & D1 & D2 & ->). inversion D2 as [|s s' x y DS DR]; subst. destruct DS as (c & -> & _).
    exists (Engine c (en_state e')). unfold top_level in *. rewrite flat_map_app. cbn. rewrite (G _ _ D1 T1), (G _ _ DR T2). reflexivity.
Qed.
Print Assumptions c72_one_top_level_block.

Definition exports_case : list item :=
  [IMacro "include_cpp" [TIdent "generate"; TBang; TGroup [TStr "A"]];
   IStruct "Top" true [];
   IMod false "m" (Some [IStruct "Sub" false [Attr "subclass" (AttrList [TIdent "superclass"; TGroup [TStr "Base"]])];
                         IMacro "include_cpp" [TIdent "name"; TBang; TGroup [TIdent "x"]]])].
Example c72_case :
  exists pf e, parse_file_contents (fun _ s => s) true exports_case = POk pf
    /\ top_level pf = [e] /\ cf_rust_types (en_config e) = [["Top"]] /\ cf_subclasses (en_config e) = [SubC "Base" "Sub"]
    /\ cf_allowlist (en_config e) = ASpecific [AItem "A"]
    /\ exists f, get_autocxxes pf = [e; f] /\ cf_subclasses (en_config f) = [].
Proof.
  eexists _, _. split; [vm_compute; reflexivity|]. split; [reflexivity|]. split; [reflexivity|]. split; [reflexivity|]. split; [reflexivity|]. eexists. split; reflexivity.
Qed.
Example c72_case_superclass : found_super exports_case (SubC "Base" "Sub").
Proof.
  exists ["m"], "Sub", false, [Attr "subclass" (AttrList [TIdent "superclass"; TGroup [TStr "Base"]])], [], (Attr "subclass" (AttrList [TIdent "superclass"; TGroup [TStr "Base"]])), [], [TIdent "superclass"; TGroup [TStr "Base"]], false, "Base".
  split; [eapply (ai_mod [] _ "m"); [right; right; left; reflexivity|constructor; left; reflexivity]|]. split; [reflexivity|]. split; [intros b []|]. split; [auto|]. split; [reflexivity|]. split; reflexivity.
Qed.

(** A file with a single block cannot be generated when that block is in a module, has no name and something is exported: the block which is
    added to hold the export has the same name. *)
Theorem c72_added_block_clashes_refuted :
  exists items pf, flat_map sources items = [SrcBlock [TIdent "generate_all"; TBang; TGroup []]]
    /\ (forall ws auto, parse_file_contents ws auto items = POk pf) /\ names (get_autocxxes pf) = ["ffi"; "ffi"]
    /\ forall gen, snd (resolve_all gen pf) <> POk tt.
Proof.
  exists [IMod false "m" (Some [IMacro "include_cpp" [TIdent "generate_all"; TBang; TGroup []]]); IStruct "S" true []]. eexists. split; [reflexivity|].
  split; [intros ws [|]; vm_compute; reflexivity|]. split; [vm_compute; reflexivity|]. intros gen. apply c38_repeated_names. vm_compute. intros N. inversion N as [|a b NI _ E]; subst. apply NI. left. reflexivity.
Qed.
Print Assumptions c72_added_block_clashes_refuted.

(** A file whose block is only parsed makes the program panic when something is exported. *)
Theorem c72_parse_only_refuted :
  exists items e, flat_map sources items = [SrcBlock [TIdent "parse_only"; TBang; TGroup []]]
    /\ engine_parse [TIdent "parse_only"; TBang; TGroup []] = Done e
    /\ forall ws auto, parse_file_contents ws auto items = PPanic.
Proof.
  exists [IMacro "include_cpp" [TIdent "parse_only"; TBang; TGroup []]; IStruct "S" true []]. eexists. split; [reflexivity|]. split; [vm_compute; reflexivity|].
  intros ws [|]; vm_compute; reflexivity.
Qed.
Print Assumptions c72_parse_only_refuted.

(** ** C39 *)

(** Generation cannot fail for want of an allowlist. *)
Definition has_allowlist (e : engine) : Prop :=
  forall hash, (exists a, bindgen_allowlist hash (en_config e) = ROk a) /\ (forall n, exists b, is_on_allowlist hash (en_config e) n = ROk b)
    /\ forall nightly prelude convert incs extra, (forall r c, convert r c <> Panics) -> snd (generate hash nightly prelude convert incs extra e) <> Panics.
Definition undecided (a : allowlist) : Prop := exists m, a = AUnspecified m.
Lemma decided_has e : ~ undecided (cf_allowlist (en_config e)) -> (forall g, en_state e <> Generated g) -> has_allowlist e.
Proof.
  intros U NG hash. assert (B : exists a, bindgen_allowlist hash (en_config e) = ROk a).
  { unfold bindgen_allowlist. destruct (cf_allowlist (en_config e)) as [m| |m]; [destruct U; exists m; reflexivity|eauto|eauto]. }
  split; [exact B|]. split.
  - intros n. unfold is_on_allowlist. destruct (_ || _); [eauto|]. destruct (cf_allowlist (en_config e)) as [m| |m]; [destruct U; exists m; reflexivity|eauto|eauto].
  - intros nightly prelude convert incs extra NP. unfold generate, make_request. destruct (en_state e) as [| |g]; [|discriminate|destruct (NG g eq_refl)].
    destruct B as [a ->]. specialize (NP (Request (make_clang_args incs extra) a (cf_opaquelist (en_config e)) (prelude +++ nl +++ nl +++ build_header (en_config e))) (en_config e)).
    destruct (cf_policy (en_config e)), nightly; try discriminate; destruct (convert _ _); cbn; congruence.
Qed.
Lemma parsed_state ts e : engine_parse ts = Done e -> forall g, en_state e <> Generated g.
Proof. unfold engine_parse. destruct (parse_config default_config ts) as [c|x|]; try discriminate. intros H. injection H as <-. intros g. cbn. destruct (cf_parse_only c); discriminate. Qed.
Lemma decided_top e s' e' : decided (SAutocxx e) s' -> In e' (seg_autocxxes s') -> ~ undecided (cf_allowlist (en_config e')) /\ en_state e' = en_state e.
Proof.
  intros (c & -> & D) [<-|[]]. cbn. split; [|reflexivity]. destruct (cf_allowlist (en_config e)) as [m| |m] eqn:A; subst c; cbn; rewrite ?A; intros [k K]; discriminate K.
Qed.

(** Every block can be generated as far as its allowlist goes, if it is not in a module or says what to generate. *)
Theorem c39_complete_partial :
  forall ws auto items pf, parse_file_contents ws auto items = POk pf ->
    (forall id l ts e0, In (IMod false id (Some l)) items -> In (SrcBlock ts) (flat_map sources l) -> engine_parse ts = Done e0 ->
       ~ undecided (cf_allowlist (en_config e0))) ->
    forall e, In e (get_autocxxes pf) -> has_allowlist e.
Proof.
  intros ws auto items pf H NU e I. unfold get_autocxxes in I. apply in_flat_map in I as (s' & IS & IE).
  destruct (c72_discoveries_go_to_one_block _ _ _ _ H) as (segs & ST & SH).
  assert (OLD : forall s, In s segs -> decided s s' -> has_allowlist e).
  { intros s I D. assert (W : exists i, In i items /\ stands_for i s).
    { clear - ST I. induction ST as [|i s0 items segs S F IH]; [destruct I|]. destruct I as [<-|I]; [exists i; split; [left; reflexivity|exact S]|].
      destruct (IH I) as (j & J & SJ). exists j. split; [right; exact J|exact SJ]. }
    destruct W as (i & II & SF). destruct s as [e0|id|m|]; [| | |]; try (cbn in D; subst s'; destruct IE).
    - destruct (decided_top _ _ _ D IE) as [U SE]. apply decided_has; [exact U|]. rewrite SE.
      destruct i as [last body|[|] id [l|]|id ex attrs|n]; try discriminate SF; [|destruct SF as (m & X & _); discriminate X].
      apply stands_macro in SF. destruct (String.eqb last "include_cpp"); [|discriminate SF]. destruct SF as (e1 & EP & X). injection X as <-. exact (parsed_state _ _ EP).
    - cbn in D. subst s'. destruct i as [last body|[|] id [l|]|id ex attrs|n]; try discriminate SF.
      + apply stands_macro in SF. destruct (String.eqb last "include_cpp"); [destruct SF as (e1 & _ & X); discriminate X|discriminate SF].
      + destruct SF as (m' & X & F). injection X as <-. 
        assert (IB : In (BEngine e) (get_cpp_buildables m)).
        { cbn [seg_autocxxes] in IE. fold (get_autocxxes m) in IE. rewrite engines_of_buildables in IE. unfold engines_of in IE. apply in_flat_map in IE as ([f|j] & IF & K); [|destruct K].
          destruct K as [->|[]]. exact IF. }
        assert (W : exists ts, In (SrcBlock ts) (flat_map sources l) /\ engine_parse ts = Done e).
        { clear - F IB. induction F as [|sr b ss bs M F IH]; [destruct IB|]. destruct IB as [->|IB].
          - destruct sr as [ts|]; [|destruct M]. exists ts. split; [left; reflexivity|exact M].
          - destruct (IH IB) as (ts & J & EP). exists ts. split; [right; exact J|exact EP]. }
        destruct W as (ts & IT & EP). apply decided_has; [exact (NU _ _ _ _ II IT EP)|exact (parsed_state _ _ EP)]. }
  assert (FROM : forall base, Forall2 decided base pf -> exists s, In s base /\ decided s s').
  { clear - IS. intros base F. induction F as [|a b base pf D F IH]; [destruct IS|]. destruct IS as [<-|IS]; [exists a; split; [left; reflexivity|exact D]|].
    destruct (IH IS) as (s & J & DS). exists s. split; [right; exact J|exact DS]. }
  destruct SH as [(_ & _ & _ & _ & D)|(fake & l1 & e0 & e' & l2 & supers & cpp & FK & E & T1 & T2 & D & NG & _ & _ & GR & _)].
  - destruct (FROM _ D) as (s & J & DS). exact (OLD s J DS).
  - destruct (FROM _ D) as (s & J & DS). 
    assert (NEW : forall f, en_state f = NotGenerated -> decided (SAutocxx f) s' -> has_allowlist e).
    { intros f NF DF. destruct (decided_top _ _ _ DF IE) as [U SE]. apply decided_has; [exact U|]. rewrite SE, NF. discriminate. }
    assert (J' : s = SAutocxx e' \/ In s (segs ++ fake)).
    { rewrite E. apply in_app_iff in J as [J|[J|J]]; [right; apply in_app_iff; auto|left; auto|right; apply in_app_iff; right; right; exact J]. }
    destruct J' as [->|J'].
    + apply (NEW e'); [|exact DS]. destruct GR as [SE _]. congruence.
    + apply in_app_iff in J' as [J'|J']; [exact (OLD s J' DS)|]. destruct FK as [->|[-> _]]; [destruct J'|]. destruct J' as [<-|[]]. apply (NEW new_for_autodiscover); [reflexivity|exact DS].
Qed.
Print Assumptions c39_complete_partial.

Example c39_case :
  exists pf e, parse_file_contents (fun _ s => s) false
      [IMacro "include_cpp" [TPound; TIdent "include"; TStr "x.h"]; IMod false "m" (Some [IMacro "include_cpp" [TIdent "name"; TBang; TGroup [TIdent "y"]; TIdent "generate"; TBang; TGroup [TStr "A"]]])] = POk pf
    /\ In e (get_autocxxes pf) /\ cf_allowlist (en_config e) = ASpecific [].
Proof. eexists _, _. split; [vm_compute; reflexivity|]. split; [left; reflexivity|reflexivity]. Qed.

(** A block in a module which says nothing about what to generate makes the generator panic. *)
Theorem c39_nested_refuted :
  exists items pf e, flat_map sources items = [SrcBlock [TPound; TIdent "include"; TStr "x.h"]]
    /\ (forall ws auto, parse_file_contents ws auto items = POk pf) /\ get_autocxxes pf = [e]
    /\ forall hash prelude convert incs extra, snd (generate hash true prelude convert incs extra e) = Panics
       /\ snd (generate hash false prelude convert incs extra e) = Panics.
Proof.
  exists [IMod false "m" (Some [IMacro "include_cpp" [TPound; TIdent "include"; TStr "x.h"]])]. eexists _, _. split; [reflexivity|].
  split; [intros ws [|]; vm_compute; reflexivity|]. split; [reflexivity|]. intros. split; reflexivity.
Qed.
Print Assumptions c39_nested_refuted.
