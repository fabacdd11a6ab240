From Verif Require Import Base ApiModel ApiVecModel ApiVecProofs ErrorReporterModel NameCheckModel KnownTypesModel
  QNamesModel CallbacksModel ConfigModel ConfigProofs ExternFunModel ParseBindgenModel ParseBindgenSpec.

Section ItemInd.
Variable P : item -> Prop.
Hypothesis leaf : forall it, (forall id l, it <> IMod id l) -> P it.
Hypothesis mod_ : forall id l, Forall P l -> P (IMod id l).
Fixpoint item_ind' (it : item) : P it :=
  match it with
  | IMod id l =>
      mod_ id l ((fix go (l : list item) : Forall P l :=
                    match l with [] => Forall_nil _ | i :: l' => Forall_cons _ (item_ind' i) (go l') end) l)
  | IForeignMod x => leaf (IForeignMod x) ltac:(discriminate)
  | IStruct x y => leaf (IStruct x y) ltac:(discriminate)
  | IEnum x => leaf (IEnum x) ltac:(discriminate)
  | IImpl x y => leaf (IImpl x y) ltac:(discriminate)
  | IModDecl x => leaf (IModDecl x) ltac:(discriminate)
  | IUse x y => leaf (IUse x y) ltac:(discriminate)
  | IConst x y => leaf (IConst x y) ltac:(discriminate)
  | IType x => leaf (IType x) ltac:(discriminate)
  | IOther => leaf IOther ltac:(discriminate)
  end.
End ItemInd.

Section S.
Variable builtin : string -> bool.
Variable lexes : string -> bool.
Variable reserved : string -> bool.
Variable cb : results.
Variable cfg : config.
Variable hash : config -> string.
Variable fun_deps : rust_fun -> ex (list qname).

Notation push := (av_push builtin).
Notation extend := (av_extend builtin).
Notation Direct := (direct lexes reserved cb cfg).
Notation IErr := (item_error builtin lexes reserved).
Notation SErr := (static_error builtin).
Notation Yields := (yields builtin lexes reserved cb cfg).
Notation p_item := (parse_item builtin lexes reserved cb cfg).
Notation p_leaf := (parse_leaf builtin lexes reserved cb cfg).
Notation p_loop := (parse_loop builtin lexes reserved cb cfg).

Lemma extend_app v a b : extend v (a ++ b) = extend (extend v a) b.
Proof. unfold av_extend; apply fold_left_app. Qed.

Lemma go_loop ns l : forall apis cv more,
  (fix go (l : list item) (apis : apivec) (cv : conv) (more : apivec) {struct l} : option (apivec * conv * apivec) :=
     match l with
     | [] => Some (apis, cv, more)
     | i :: l' =>
         match p_item i ns apis cv with
         | None => None
         | Some (apis', cv', r) => go l' apis' cv' (fst (report_any_error builtin ns more r))
         end
     end) l apis cv more = p_loop ns l apis cv more.
Proof. induction l as [|i l IH]; intros; [reflexivity|]. cbn [parse_loop]. destruct (p_item i ns apis cv) as [[[a c] r]|]; [apply IH|reflexivity]. Qed.

Lemma p_item_mod id l ns apis cv :
  p_item (IMod id l) ns apis cv =
  match p_loop (ns ++ [id]) l apis conv_new av_new with
  | None => None
  | Some (apis', cv', more) =>
      Some (finished builtin (ns ++ [id]) cv' (fst (av_append builtin apis' more)), cv, Ok tt)
  end.
Proof. cbn [parse_item]. rewrite go_loop. reflexivity. Qed.

(** ** Collections of errors *)

Lemma push_ignored v a : av_wf v -> is_ignored a = true ->
  av_wf (push v a)
  /\ (forall b, In b (av_apis (push v a)) -> In b (av_apis v) \/ b = a)
  /\ (forall n, In n (map aname (av_apis (push v a))) <-> n = aname a \/ In n (map aname (av_apis v))).
Proof.
  intros W I. split; [apply av_wf_push, W|]. split; [|intros n; apply push_names, W].
  intros b. unfold av_push. rewrite I. destruct (qmem (aname a) (av_names v)); cbn; [auto|].
  rewrite in_app_iff; cbn; intuition.
Qed.
Lemma extend_ignored l : forall v, av_wf v -> Forall (fun a => is_ignored a = true) l ->
  forall b, In b (av_apis (extend v l)) -> In b (av_apis v) \/ In b l.
Proof.
  induction l as [|a l IH]; cbn; intros v W F b H; [auto|]. inversion F as [|? ? F1 F2]; subst.
  apply IH in H; [|apply av_wf_push, W|exact F2]. destruct H as [H|H]; [|auto].
  apply (push_ignored v a W F1) in H. intuition.
Qed.

(** A collection [v'] holds what [v] held and errors [E], each name once. *)
Definition grows (E : api -> Prop) (v v' : apivec) : Prop :=
  av_wf v -> Forall (fun a => is_ignored a = true) (av_apis v) ->
  av_wf v' /\ Forall (fun a => is_ignored a = true) (av_apis v')
  /\ (forall b, In b (av_apis v') -> In b (av_apis v) \/ E b)
  /\ (forall n, In n (map aname (av_apis v')) <-> In n (map aname (av_apis v)) \/ exists b, E b /\ aname b = n).

Lemma grows_refl (E : api -> Prop) v : (forall b, ~ E b) -> grows E v v.
Proof. intros N W F. repeat split; try apply W; auto. intros [H|[b [Hb _]]]; [exact H|destruct (N _ Hb)]. Qed.
Lemma grows_trans E1 E2 u v w : grows E1 u v -> grows E2 v w -> grows (fun b => E1 b \/ E2 b) u w.
Proof.
  intros A B W F. destruct (A W F) as (W1 & F1 & I1 & N1). destruct (B W1 F1) as (W2 & F2 & I2 & N2).
  split; [exact W2|]. split; [exact F2|]. split.
  - intros b H. apply I2 in H as [H|H]; [apply I1 in H as [H|H]|]; auto.
  - intros n. rewrite N2, N1. split.
    + intros [[H|[b [Hb Eb]]]|[b [Hb Eb]]]; eauto.
    + intros [H|[b [[Hb|Hb] Eb]]]; eauto.
Qed.
Lemma grows_ext (E1 E2 : api -> Prop) u v : (forall b, E1 b <-> E2 b) -> grows E1 u v -> grows E2 u v.
Proof.
  intros X G W F. destruct (G W F) as (W1 & F1 & I1 & N1). split; [exact W1|]. split; [exact F1|]. split.
  - intros b H. apply I1 in H as [H|H]; [auto|right; apply X; exact H].
  - intros n. rewrite N1. split; (intros [H|[b [Hb Eb]]]; [auto|right; exists b; split; [apply X; exact Hb|exact Eb]]).
Qed.
Lemma grows_push E v a : (forall b, E b <-> b = a) -> is_ignored a = true -> grows E v (push v a).
Proof.
  intros X I W F. destruct (push_ignored v a W I) as (W1 & I1 & N1).
  split; [exact W1|]. split; [|split].
  - apply Forall_forall. intros b H. apply I1 in H as [H|H]; [rewrite Forall_forall in F; auto|subst; exact I].
  - intros b H. apply I1 in H as [H|H]; [auto|right; apply X; exact H].
  - intros n. rewrite N1. split.
    + intros [H|H]; [right; exists a; split; [apply X|]; auto|auto].
    + intros [H|[b [Hb Eb]]]; [auto|]. apply X in Hb; subst; auto.
Qed.
Lemma grows_append E v u : grows E av_new u -> grows E v (extend v (av_apis u)).
Proof.
  intros G W F. destruct (G av_wf_new (Forall_nil _)) as (W1 & F1 & I1 & N1).
  split; [apply av_wf_extend, W|]. split; [|split].
  - apply Forall_forall. intros b H. apply extend_ignored in H; auto.
    rewrite Forall_forall in F, F1. destruct H; auto.
  - intros b H. apply extend_ignored in H; auto. destruct H as [H|H]; [auto|]. apply I1 in H as [[]|H]; auto.
  - intros n. rewrite extend_names by exact W. rewrite N1. cbn. intuition.
Qed.

(** ** Functions and receivers *)

Lemma sget_minsert {V} k (v : V) m k' : sget k' (minsert k v m) = if String.eqb k' k then Some v else sget k' m.
Proof.
  induction m as [|[a x] m IH]; cbn; [reflexivity|].
  destruct (String.eqb_spec a k) as [->|N]; cbn.
  - destruct (String.eqb_spec k' k); reflexivity.
  - destruct (String.eqb_spec k' a) as [->|N']; [|exact IH]. destruct (String.eqb_spec a k); [congruence|reflexivity].
Qed.

(** What the conversion state gains from an item. *)
Definition receivers_step (ns : list string) (it : item) (m m' : list (string * qname)) : Prop :=
  forall id, (exists ty, has_method it ty id /\ sget id m' = Some (QN ns ty))
             \/ ((forall ty, ~ has_method it ty id) /\ sget id m' = sget id m).
Definition funcs_step (ns : list string) (it : item) (l l' : list (string * option string)) : Prop :=
  exists fs, l' = l ++ fs
    /\ forall p, In p fs <-> declares_fn it (fst p) /\ get_original_name cb (QN ns (fst p)) = Ok (snd p).
Definition conv_step (ns : list string) (it : item) (c c' : conv) : Prop :=
  funcs_step ns it (cv_funcs c) (cv_funcs c')
  /\ receivers_step ns it (cv_receivers c) (cv_receivers c')
  /\ grows (SErr ns it) (cv_ignored c) (cv_ignored c').

Lemma conv_step_refl ns it c :
  (forall l, it <> IForeignMod l) -> (forall t l, it <> IImpl t l) -> conv_step ns it c c.
Proof.
  intros A B. split; [|split].
  - exists []. split; [rewrite app_nil_r; reflexivity|]. intros p; split; [intros []|].
    intros [(l & x & E & _) _]. destruct (A _ E).
  - intros id; right. split; [|reflexivity]. intros ty (fns & f & E & _). destruct (B _ _ E).
  - apply grows_refl. intros b H. inversion H; subst. eapply A; reflexivity.
Qed.

Lemma foreign_items_ok ns l : forall funcs extra funcs' extra',
  parse_foreign_items builtin cb ns l funcs extra = Some (funcs', extra') ->
  funcs_step ns (IForeignMod l) funcs funcs' /\ grows (SErr ns (IForeignMod l)) extra extra'.
Proof.
  induction l as [|i l IH]; intros funcs extra funcs' extra' H.
  - injection H as -> ->. split.
    + exists []. split; [rewrite app_nil_r; reflexivity|]. intros p; split; [intros []|].
      intros [(l & x & E & I & _) _]. injection E as <-. destruct I.
    + apply grows_refl. intros b X; inversion X; subst. contradiction.
  - cbn [parse_foreign_items] in H.
    destruct (parse_foreign_item builtin cb ns i funcs) as [[f1 r]|] eqn:E; [|discriminate H].
    apply IH in H as [(fs & -> & F) G]. destruct i as [x|x|]; cbn in E.
    + destruct (get_original_name cb _) as [o|] eqn:O; [|discriminate E]. injection E as <- <-.
      split.
      * exists ((strip_bindgen_original_suffix x, o) :: fs). split; [rewrite <- app_assoc; reflexivity|].
        intros p. cbn [In]. rewrite F. split.
        -- intros [<-|[(l0 & y & E & I & Ey) P]]; cbn [fst snd].
           ++ split; [|exact O]. exists (FIFn x :: l), x. repeat split. left; reflexivity.
           ++ split; [|exact P]. injection E as <-. exists (FIFn x :: l), y. repeat split; [right; exact I|exact Ey].
        -- intros [(l0 & y & E & I & Ey) P]. injection E as <-. destruct I as [I|I].
           ++ injection I as ->. left. destruct p as [p1 p2]; cbn in *. subst p1. rewrite O in P. injection P as ->. reflexivity.
           ++ right. split; [|exact P]. exists l, y. auto.
      * eapply grows_ext; [|exact G]. intros b; split; intros X; inversion X as [l0 id a I Ea]; subst; econstructor.
        -- right; exact I.
        -- exact Ea.
        -- destruct I as [I|I]; [discriminate I|exact I].
        -- exact Ea.
    + injection E as <- <-. cbn [report_any_error fst] in G. split.
      * exists fs. split; [reflexivity|]. intros p. rewrite F. split; intros [(l0 & y & E & I & Ey) P]; (split; [|exact P]); injection E as <-.
        -- exists (FIStatic x :: l), y. repeat split; [right; exact I|exact Ey].
        -- destruct I as [I|I]; [discriminate I|]. exists l, y; auto.
      * set (a0 := API (AN (QN ns (ctx_id (ctx_for_item builtin x))) None)
                     (KIgnored EStaticData (Some (ctx_for_item builtin x)))) in *.
        eapply grows_ext; [|eapply grows_trans; [apply (grows_push (fun b => b = a0) extra a0); [tauto|reflexivity]|exact G]].
        intros b; split.
        -- intros [->|X]; [econstructor; [left; reflexivity|reflexivity]|]. inversion X; subst. econstructor; [right; eassumption|assumption].
        -- intros X; inversion X as [l0 id a I Ea]; subst. destruct I as [I|I]; [injection I as ->; left; exact Ea|].
           right; econstructor; eassumption.
    + injection E as <- <-. cbn [report_any_error fst] in G. split.
      * exists fs. split; [reflexivity|]. intros p. rewrite F. split; intros [(l0 & y & E & I & Ey) P]; (split; [|exact P]); injection E as <-.
        -- exists (FIOther :: l), y. repeat split; [right; exact I|exact Ey].
        -- destruct I as [I|I]; [discriminate I|]. exists l, y; auto.
      * eapply grows_ext; [|exact G]. intros b; split; intros X; inversion X as [l0 id a I Ea]; subst; econstructor.
        -- right; exact I.
        -- exact Ea.
        -- destruct I as [I|I]; [discriminate I|exact I].
        -- exact Ea.
Qed.

Lemma impl_ok ns self_ty fns c : conv_step ns (IImpl self_ty fns) c (convert_impl_items ns self_ty fns c).
Proof.
  assert (F : funcs_step ns (IImpl self_ty fns) (cv_funcs c) (cv_funcs (convert_impl_items ns self_ty fns c))).
  { exists []. split; [destruct self_ty; cbn; rewrite app_nil_r; reflexivity|]. intros p; split; [intros []|].
    intros [(l & x & E & _) _]; discriminate E. }
  assert (G : grows (SErr ns (IImpl self_ty fns)) (cv_ignored c) (cv_ignored (convert_impl_items ns self_ty fns c))).
  { replace (cv_ignored (convert_impl_items ns self_ty fns c)) with (cv_ignored c) by (destruct self_ty; reflexivity).
    apply grows_refl. intros b H; inversion H. }
  split; [exact F|]. split; [|exact G]. clear F G.
  destruct self_ty as [ty|]; cbn [convert_impl_items cv_receivers].
  2: { intros id; right. split; [|reflexivity]. intros t (l & f & E & _); discriminate E. }
  generalize (cv_receivers c). clear c. induction fns as [|f fns IH]; intros m id.
  - right. split; [|reflexivity]. intros t (l & g & E & I & _). injection E as _ <-. destruct I.
  - cbn [fold_left]. destruct (IH (minsert (effective_fun_name f) (QN ns ty) m) id) as [(t & (l & g & E & I & Eg) & S)|[N S]].
    + injection E as <- <-. left. exists ty. split; [|exact S]. exists (f :: fns), g. repeat split; [right; exact I|exact Eg].
    + rewrite S, sget_minsert. destruct (String.eqb_spec id (effective_fun_name f)) as [->|Ne].
      * left. exists ty. split; [|reflexivity]. exists (f :: fns), f. repeat split. left; reflexivity.
      * right. split; [|reflexivity]. intros t (l & g & E & I & Eg). injection E as <- <-. destruct I as [<-|I]; [contradiction|].
        apply (N ty). exists fns, g. auto.
Qed.

(** ** Items other than modules *)

Definition adds (D : api -> Prop) (P : list api) : Prop :=
  (forall a, In a P -> D a) /\ (forall a, D a -> In (aname a) (map aname P)).
Definition err_step (ns : list string) (it : item) (r : res unit err_with_ctx) : Prop :=
  forall more, grows (IErr ns it) more (fst (report_any_error builtin ns more r)).
Definition item_step (ns : list string) (it : item) (D : api -> Prop) (apis apis' : apivec) (cv cv' : conv)
    (r : res unit err_with_ctx) : Prop :=
  exists P, apis' = extend apis P /\ adds D P /\ conv_step ns it cv cv' /\ err_step ns it r.

Lemma adds_nil (D : api -> Prop) : (forall a, ~ D a) -> adds D [].
Proof. intros N; split; [intros a []|]. intros a H; destruct (N _ H). Qed.
Lemma adds_one (D : api -> Prop) a0 : D a0 -> (forall a, D a -> aname a = aname a0) -> adds D [a0].
Proof. intros A B; split; [intros a [<-|[]]; exact A|]. intros a H. left. symmetry; apply B, H. Qed.
Lemma err_none ns it : (forall a, ~ IErr ns it a) -> err_step ns it (Ok tt).
Proof. intros N more. apply grows_refl, N. Qed.
Lemma err_some ns it e id :
  (forall a, IErr ns it a <-> error_api builtin ns id e a) -> err_step ns it (Err (e, Some (ctx_for_item builtin id))).
Proof. intros X more. apply grows_push; [|reflexivity]. intros b. rewrite X. reflexivity. Qed.

Lemma api_name_spec ns id n : ParseBindgenModel.api_name cb ns id = Some n ->
  exists o, get_original_name cb (QN ns id) = Ok o /\ n = AN (QN ns id) o.
Proof. unfold ParseBindgenModel.api_name. destruct (get_original_name cb _) as [o|]; [|discriminate]. intros H; injection H as <-. eauto. Qed.

Lemma qualified_spec ns id r : api_name_qualified builtin lexes reserved cb ns id = Some r ->
  match r with
  | Ok n => valid lexes reserved id /\ exists o, get_original_name cb (QN ns id) = Ok o /\ n = AN (QN ns id) o
  | Err e => exists e', invalid lexes reserved id e' /\ e = (e', Some (ctx_for_item builtin id))
  end.
Proof.
  unfold api_name_qualified, valid, invalid. destruct (validate_ident_ok_for_cxx lexes reserved id) as [|e|]; [|intros H; injection H as <-; eauto|discriminate].
  destruct (ParseBindgenModel.api_name cb ns id) as [n|] eqn:E; [|discriminate]. intros H; injection H as <-.
  split; [reflexivity|]. apply api_name_spec, E.
Qed.

Lemma fatal_spec ns id r : fatal_attrs builtin cb (QN ns id) = Some r -> (r <> None <-> fatal cb ns id).
Proof.
  unfold fatal_attrs, fatal. destruct (discards_template_param cb (QN ns id)) as [[|]|]; intros H.
  - injection H as <-. split; [auto|discriminate].
  - destruct (get_cpp_visibility cb (QN ns id)) as [v|]; [|discriminate H].
    destruct v; injection H as <-; split; try discriminate.
    + intros N; destruct N; reflexivity.
    + intros [X|(v & E & N)]; [discriminate X|]. injection E as <-; destruct N; reflexivity.
    + intros _; right; exists CbProtected; split; [reflexivity|discriminate].
    + intros _; right; exists CbPrivate; split; [reflexivity|discriminate].
  - discriminate H.
Qed.

Lemma spot_field_spec fs n : spot_field fs n = true <-> has_field fs n.
Proof.
  unfold spot_field, has_field. rewrite existsb_exists, in_map_iff. split.
  - intros (f & I & E). destruct (f_ident f) as [i|] eqn:F; [|discriminate E]. apply String.eqb_eq in E; subst. eauto.
  - intros (f & E & I). exists f. rewrite E. split; [exact I|apply String.eqb_refl].
Qed.

Lemma blocked_spec ns id : is_on_blocklist cfg (to_cpp_name (QN ns id)) = true <-> blocked cfg ns id.
Proof.
  unfold is_on_blocklist, blocked, smem. rewrite existsb_exists. split.
  - intros (x & I & E). apply String.eqb_eq in E; subst; exact I.
  - intros I. eexists; split; [exact I|apply String.eqb_refl].
Qed.

Lemma named_name ns id k a : named_api cb ns id k a -> aname a = QN ns id.
Proof. intros (o & _ & ->); reflexivity. Qed.

Lemma valid_invalid id e : valid lexes reserved id -> invalid lexes reserved id e -> False.
Proof. unfold valid, invalid; congruence. Qed.

Lemma struct_ok ns id fields apis apis' cv r :
  parse_struct builtin lexes reserved cb cfg ns id fields apis = Some (apis', r) ->
  item_step ns (IStruct id fields) (Direct ns (IStruct id fields)) apis apis' cv cv r.
Proof.
  unfold parse_struct. intros H.
  assert (C : conv_step ns (IStruct id fields) cv cv) by (apply conv_step_refl; discriminate).
  destruct (ends_with "__bindgen_vtable" id) eqn:V.
  { injection H as <- <-. exists []. split; [reflexivity|]. split; [apply adds_nil; intros a X; inversion X; congruence|].
    split; [exact C|]. apply err_none. intros a X; inversion X; congruence. }
  destruct (api_name_qualified builtin lexes reserved cb ns id) as [[n|e]|] eqn:Q; [| |discriminate H]; apply qualified_spec in Q.
  2: { destruct Q as (e' & I & ->). injection H as <- <-. exists []. split; [reflexivity|].
       split; [apply adds_nil; intros a X; inversion X; subst; eapply valid_invalid; eassumption|]. split; [exact C|].
       apply err_some. intros a; split.
       - intros X; inversion X; subst. unfold invalid in *. congruence.
       - intros X. econstructor; eassumption. }
  destruct Q as (Val & o & O & ->). cbn [an_name] in H.
  assert (NoErr : forall a, ~ IErr ns (IStruct id fields) a).
  { intros a X; inversion X; subst. eapply valid_invalid; eassumption. }
  assert (Skip : provided cfg ns id \/ blocked cfg ns id -> adds (Direct ns (IStruct id fields)) []).
  { intros K. apply adds_nil. intros a X; inversion X; subst; destruct K; auto. }
  destruct (is_known_substitute_type (QN ns id)) eqn:Sub.
  { injection H as <- <-. exists []. split; [reflexivity|]. split; [apply Skip; left; left; exact Sub|]. split; [exact C|apply err_none, NoErr]. }
  destruct (fatal_attrs builtin cb (QN ns id)) as [err|] eqn:Fa; [|discriminate H]. apply fatal_spec in Fa.
  destruct (((match ns with [] => true | _ => false end) && is_rust_type cfg id) || is_known_type (QN ns id)) eqn:Prov.
  { injection H as <- <-. exists []. split; [reflexivity|].
    split; [|split; [exact C|apply err_none, NoErr]]. apply Skip; left.
    apply orb_true_iff in Prov as [Prov|Prov]; [|right; left; exact Prov].
    apply andb_true_iff in Prov as [E R]. right; right. destruct ns; [auto|discriminate E]. }
  assert (NP : ~ provided cfg ns id).
  { intros [X|[X|[-> X]]]; [congruence| |]; rewrite X, ?orb_true_r in Prov; discriminate. }
  set (fwd := spot_field fields "_unused" || (spot_field fields "_address" && match err with Some _ => true | None => false end)) in *.
  assert (Fw : fwd = true <-> forward cb ns id fields).
  { unfold fwd, forward. rewrite orb_true_iff, andb_true_iff, !spot_field_spec, <- Fa.
    assert (match err with Some _ => true | None => false end = true <-> err <> None) as -> by (destruct err; split; congruence). reflexivity. }
  assert (Names : forall a, Direct ns (IStruct id fields) a -> aname a = QN ns id).
  { intros a X; inversion X; subst; eapply named_name; eassumption. }
  destruct (is_on_blocklist cfg (to_cpp_name (QN ns id))) eqn:B.
  { assert (apis' = apis /\ r = Ok tt) as [-> ->].
    { destruct fwd; cbn [aname api_info an_name] in H; unfold aname in H; cbn [api_info an_name] in H; rewrite B in H; injection H; auto. }
    exists []. split; [reflexivity|]. split; [apply Skip; right; apply blocked_spec, B|]. split; [exact C|apply err_none, NoErr]. }
  assert (NB : ~ blocked cfg ns id) by (rewrite <- blocked_spec; congruence).
  destruct fwd.
  - unfold aname in H; cbn [api_info an_name] in H. rewrite B in H. injection H as <- <-.
    eexists [_]. split; [reflexivity|]. split; [|split; [exact C|apply err_none, NoErr]].
    apply adds_one; [|intros a X; rewrite (Names a X); reflexivity].
    eapply d_forward; [exact V|exact Val|exact NP|exact NB|apply Fw; reflexivity| |exists o; split; [exact O|reflexivity]].
    intros F. apply Fa in F. destruct err; [discriminate|congruence].
  - unfold aname in H; cbn [api_info an_name] in H. rewrite B in H. injection H as <- <-.
    eexists [_]. split; [reflexivity|]. split; [|split; [exact C|apply err_none, NoErr]].
    apply adds_one; [|intros a X; rewrite (Names a X); reflexivity].
    eapply d_struct; [exact V|exact Val|exact NP|exact NB|rewrite <- Fw; discriminate|exists o; split; [exact O|reflexivity]].
Qed.

Lemma use_ok ns segs tail apis apis' cv r :
  parse_use builtin cb ns segs tail apis = Some (apis', r) ->
  item_step ns (IUse segs tail) (Direct ns (IUse segs tail)) apis apis' cv cv r.
Proof.
  unfold parse_use. intros H.
  assert (C : conv_step ns (IUse segs tail) cv cv) by (apply conv_step_refl; discriminate).
  assert (Nothing : (forall a, ~ Direct ns (IUse segs tail) a) -> (forall a, ~ IErr ns (IUse segs tail) a) ->
                    item_step ns (IUse segs tail) (Direct ns (IUse segs tail)) apis apis cv cv (Ok tt)).
  { intros A B. exists []. split; [reflexivity|]. split; [apply adds_nil, A|]. split; [exact C|apply err_none, B]. }
  destruct tail as [x|old new|]; [injection H as <- <-; apply Nothing; intros a X; inversion X| |injection H as <- <-; apply Nothing; intros a X; inversion X].
  destruct (String.eqb_spec new "bindgen_cchar16_t") as [->|N16].
  { injection H as <- <-. apply Nothing; intros a X; inversion X; congruence. }
  destruct segs as [|s1 [|s2 rest]]; [discriminate H|discriminate H|].
  destruct (String.eqb_spec s1 "self") as [->|]; [|discriminate H].
  destruct (String.eqb_spec s2 "super") as [->|]; [|discriminate H]. cbn [andb] in H.
  destruct (from_type_path (rest ++ [old])) as [q|] eqn:Q; [|discriminate H].
  destruct (qn_eqb (QN ns new) q) eqn:E.
  - apply qn_eqb_eq in E; subst q. injection H as <- <-. exists []. split; [reflexivity|].
    split; [apply adds_nil; intros a X; inversion X; congruence|]. split; [exact C|].
    apply err_some. intros a; split; [intros X; inversion X; subst; assumption|]. intros X. constructor; assumption.
  - apply qn_eqb_neq in E.
    destruct (ParseBindgenModel.api_name cb ns new) as [n|] eqn:A; [|discriminate H]. apply api_name_spec in A as (o & O & ->).
    injection H as <- <-. eexists [_]. split; [reflexivity|]. split; [|split; [exact C|]].
    + apply adds_one.
      * apply (d_use _ _ _ _ ns rest old new q); [exact N16|exact Q|congruence|exists o; split; [exact O|reflexivity]].
      * intros a X; inversion X; subst. erewrite named_name by eassumption; reflexivity.
    + apply err_none. intros a X; inversion X; subst. congruence.
Qed.

Lemma leaf_ok it ns apis cv apis' cv' r : (forall id l, it <> IMod id l) ->
  p_leaf it ns apis cv = Some (apis', cv', r) -> item_step ns it (Direct ns it) apis apis' cv cv' r.
Proof.
  intros L H.
  assert (Nothing : (forall a, ~ Direct ns it a) -> (forall a, ~ IErr ns it a) -> conv_step ns it cv cv' ->
                    item_step ns it (Direct ns it) apis apis cv cv' (Ok tt)).
  { intros A B C. exists []. split; [reflexivity|]. split; [apply adds_nil, A|]. split; [exact C|apply err_none, B]. }
  destruct it as [l|id fields|id|st fns|id l|id|segs tail|id ty|id|]; cbn [parse_leaf] in H.
  - unfold convert_foreign_mod_items in H.
    destruct (parse_foreign_items builtin cb ns l (cv_funcs cv) av_new) as [[fs ex]|] eqn:E; [|discriminate H].
    injection H as <- <- <-. apply foreign_items_ok in E as [F G].
    apply Nothing; [intros a X; inversion X|intros a X; inversion X|].
    split; [exact F|]. split; [|apply grows_append, G].
    intros id; right. split; [|reflexivity]. intros t (fns & f & E & _); discriminate E.
  - destruct (parse_struct builtin lexes reserved cb cfg ns id fields apis) as [[a1 r1]|] eqn:E; [|discriminate H].
    injection H as <- <- <-. eapply struct_ok, E.
  - assert (C : conv_step ns (IEnum id) cv cv) by (apply conv_step_refl; discriminate).
    destruct (api_name_qualified builtin lexes reserved cb ns id) as [[n|e]|] eqn:Q; [| |discriminate H]; apply qualified_spec in Q.
    + destruct Q as (Val & o & O & ->). cbn [an_name] in H.
      assert (NoErr : forall a, ~ IErr ns (IEnum id) a).
      { intros a X; inversion X; subst. eapply valid_invalid; eassumption. }
      injection H as <- <- <-.
      destruct (is_on_blocklist cfg (to_cpp_name (QN ns id))) eqn:B.
      * apply Nothing; [|exact NoErr|exact C]. intros a X; inversion X; subst. apply blocked_spec in B. contradiction.
      * eexists [_]. split; [reflexivity|]. split; [|split; [exact C|apply err_none, NoErr]].
        apply adds_one.
        -- constructor; [exact Val|rewrite <- blocked_spec; congruence|exists o; split; [exact O|reflexivity]].
        -- intros a X; inversion X; subst. erewrite named_name by eassumption; reflexivity.
    + destruct Q as (e' & I & ->). injection H as <- <- <-. exists []. split; [reflexivity|].
      split; [apply adds_nil; intros a X; inversion X; subst; eapply valid_invalid; eassumption|]. split; [exact C|].
      apply err_some. intros a; split.
      * intros X; inversion X; subst. unfold invalid in *. congruence.
      * intros X. econstructor; eassumption.
  - injection H as <- <- <-. apply Nothing; [intros a X; inversion X|intros a X; inversion X|]. apply impl_ok.
  - destruct (L id l eq_refl).
  - injection H as <- <- <-. apply Nothing; [intros a X; inversion X|intros a X; inversion X|]. apply conv_step_refl; discriminate.
  - destruct (parse_use builtin cb ns segs tail apis) as [[a1 r1]|] eqn:E; [|discriminate H].
    injection H as <- <- <-. eapply use_ok, E.
  - assert (C : conv_step ns (IConst id ty) cv cv) by (apply conv_step_refl; discriminate).
    destruct (match ty with Some t => validate_ident_ok_for_cxx lexes reserved t | None => VOk end) as [|e|] eqn:V; [| |discriminate H].
    + destruct (ParseBindgenModel.api_name cb ns id) as [n|] eqn:A; [|discriminate H]. apply api_name_spec in A as (o & O & ->).
      injection H as <- <- <-. eexists [_]. split; [reflexivity|]. split; [|split; [exact C|apply err_none; intros a X; inversion X]].
      apply adds_one.
      * constructor; [intros t ->; exact V|exists o; split; [exact O|reflexivity]].
      * intros a X; inversion X; subst. erewrite named_name by eassumption; reflexivity.
    + injection H as <- <- <-. apply Nothing; [|intros a X; inversion X|exact C].
      intros a X; inversion X; subst. destruct ty as [t|]; [|discriminate V].
      eapply valid_invalid; [eauto|]. exact V.
  - assert (C : conv_step ns (IType id) cv cv) by (apply conv_step_refl; discriminate).
    destruct (ParseBindgenModel.api_name cb ns id) as [n|] eqn:A; [|discriminate H]. apply api_name_spec in A as (o & O & ->).
    injection H as <- <- <-. eexists [_]. split; [reflexivity|]. split; [|split; [exact C|apply err_none; intros a X; inversion X]].
    apply adds_one.
    * constructor. exists o; split; [exact O|reflexivity].
    * intros a X; inversion X; subst. erewrite named_name by eassumption; reflexivity.
  - injection H as <- <- <-. exists []. split; [reflexivity|]. split; [apply adds_nil; intros a X; inversion X|].
    split; [apply conv_step_refl; discriminate|]. intros more. apply grows_refl. intros b X; inversion X.
Qed.

(** ** Modules *)

Definition anywhere (ns : list string) (l : list item) (a : api) : Prop :=
  exists ns' sib it, within ns l ns' sib it /\ Yields ns' sib it a.
Definition inside (ns : list string) (it : item) (a : api) : Prop :=
  exists id sub, it = IMod id sub /\ anywhere (ns ++ [id]) sub a.
Definition contrib (ns : list string) (it : item) (a : api) : Prop := Direct ns it a \/ inside ns it a.
Definition item_ok (it : item) : Prop :=
  forall ns apis cv apis' cv' r, p_item it ns apis cv = Some (apis', cv', r) ->
    item_step ns it (contrib ns it) apis apis' cv cv' r.

Lemma adds_ext (D D' : api -> Prop) P : (forall a, D a <-> D' a) -> adds D P -> adds D' P.
Proof. intros X [A B]; split; [intros a H; apply X, A, H|intros a H; apply B, X, H]. Qed.
Lemma adds_app D D' P P' : adds D P -> adds D' P' -> adds (fun a => D a \/ D' a) (P ++ P').
Proof.
  intros [A B] [A' B']; split.
  - intros a H. apply in_app_iff in H as [H|H]; auto.
  - intros a H. rewrite map_app, in_app_iff. destruct H; auto.
Qed.

Definition funcs_steps (ns : list string) (l : list item) (f f' : list (string * option string)) : Prop :=
  exists fs, f' = f ++ fs
    /\ forall p, In p fs <-> (exists it, In it l /\ declares_fn it (fst p)) /\ get_original_name cb (QN ns (fst p)) = Ok (snd p).
Definition receivers_steps (ns : list string) (l : list item) (m m' : list (string * qname)) : Prop :=
  forall id, (exists it ty, In it l /\ has_method it ty id /\ sget id m' = Some (QN ns ty))
             \/ ((forall it ty, In it l -> ~ has_method it ty id) /\ sget id m' = sget id m).
Definition some_of (l : list item) (E : item -> api -> Prop) (a : api) : Prop := exists it, In it l /\ E it a.

Lemma some_of_cons i l E a : (E i a \/ some_of l E a) <-> some_of (i :: l) E a.
Proof.
  unfold some_of; split.
  - intros [H|(it & I & H)]; [exists i; split; [left; reflexivity|exact H]|exists it; split; [right; exact I|exact H]].
  - intros (it & [<-|I] & H); [auto|right; eauto].
Qed.

Lemma loop_ok ns l : Forall item_ok l -> forall apis cv more apis' cv' more',
  p_loop ns l apis cv more = Some (apis', cv', more') ->
  exists P, apis' = extend apis P /\ adds (some_of l (contrib ns)) P
    /\ funcs_steps ns l (cv_funcs cv) (cv_funcs cv')
    /\ receivers_steps ns l (cv_receivers cv) (cv_receivers cv')
    /\ grows (some_of l (SErr ns)) (cv_ignored cv) (cv_ignored cv')
    /\ grows (some_of l (IErr ns)) more more'.
Proof.
  induction 1 as [|i l Hi _ IH]; intros apis cv more apis' cv' more' H.
  - injection H as <- <- <-. exists []. split; [reflexivity|]. split; [apply adds_nil; intros a (it & [] & _)|].
    split; [exists []; split; [rewrite app_nil_r; reflexivity|]; intros p; split; [intros []|intros [(it & [] & _) _]]|].
    split; [intros id; right; split; [intros it ty []|reflexivity]|].
    split; apply grows_refl; intros b (it & [] & _).
  - cbn [parse_loop] in H. destruct (p_item i ns apis cv) as [[[a1 c1] r]|] eqn:E; [|discriminate H].
    apply Hi in E as (P1 & -> & A1 & (F1 & R1 & G1) & E1).
    apply IH in H as (P2 & -> & A2 & F2 & R2 & G2 & E2).
    exists (P1 ++ P2). split; [symmetry; apply extend_app|]. split.
    { eapply adds_ext; [|apply adds_app; [exact A1|exact A2]]. intros a; apply some_of_cons. }
    split.
    { destruct F1 as (f1 & Q1 & F1). destruct F2 as (f2 & Q2 & F2). exists (f1 ++ f2). rewrite Q2, Q1, app_assoc. split; [reflexivity|].
      intros p. rewrite in_app_iff, F1, F2. split.
      - intros [[D O]|[(it & I & D) O]]; (split; [|exact O]); [exists i; split; [left; reflexivity|exact D]|exists it; split; [right; exact I|exact D]].
      - intros [(it & [<-|I] & D) O]; [auto|right; eauto]. }
    split.
    { intros id. destruct (R2 id) as [(it & ty & I & M & S)|[N S]].
      - left. exists it, ty. split; [right; exact I|]. auto.
      - destruct (R1 id) as [(ty & M & S1)|[N1 S1]].
        + left. exists i, ty. split; [left; reflexivity|]. split; [exact M|congruence].
        + right. split; [|congruence]. intros it ty [<-|I]; [apply N1|apply N, I]. }
    split.
    + eapply grows_ext; [|eapply grows_trans; [exact G1|exact G2]]. intros b; apply some_of_cons.
    + eapply grows_ext; [|eapply grows_trans; [apply E1|exact E2]]. intros b; apply some_of_cons.
Qed.

Lemma grows_new_adds E v : grows E av_new v -> adds E (av_apis v).
Proof.
  intros G. destruct (G av_wf_new (Forall_nil _)) as (_ & _ & I & N). split.
  - intros a H. apply I in H as [[]|H]; exact H.
  - intros a H. apply N. right; eauto.
Qed.

Lemma anywhere_split ns l a :
  anywhere ns l a <->
  some_of l (contrib ns) a \/ some_of l (IErr ns) a \/ some_of l (SErr ns) a
  \/ some_of l (fun it a => function_api cb ns l it a) a.
Proof.
  split.
  - intros (ns' & sib & it & W & Y). inversion W as [? ? ? I|? ? id sub ? ? ? I W']; subst.
    + destruct Y as [Y|[Y|[Y|Y]]].
      * left; exists it; split; [exact I|left; exact Y].
      * right; left; exists it; auto.
      * right; right; left; exists it; auto.
      * right; right; right; exists it; auto.
    + left. exists (IMod id sub). split; [exact I|]. right. exists id, sub. split; [reflexivity|]. exists ns', sib, it; auto.
  - intros [(it & I & [Y|(id & sub & -> & ns' & sib & it0 & W & Y)])|[(it & I & Y)|[(it & I & Y)|(it & I & Y)]]].
    + exists ns, l, it. split; [constructor; exact I|left; exact Y].
    + exists ns', sib, it0. split; [econstructor; eassumption|exact Y].
    + exists ns, l, it. split; [constructor; exact I|right; left; exact Y].
    + exists ns, l, it. split; [constructor; exact I|right; right; left; exact Y].
    + exists ns, l, it. split; [constructor; exact I|right; right; right; exact Y].
Qed.

Lemma finish_ok ns l apis apis' cv more : Forall item_ok l ->
  p_loop ns l apis conv_new av_new = Some (apis', cv, more) ->
  exists P, finished builtin ns cv (fst (av_append builtin apis' more)) = extend apis P /\ adds (anywhere ns l) P.
Proof.
  intros HF H. apply loop_ok in H as (P & -> & A & F & R & G & E); [|exact HF].
  unfold finished, av_append; cbn [fst conv_new cv_funcs cv_receivers cv_ignored] in *.
  set (fns := map (finished_fn ns (cv_receivers cv)) (cv_funcs cv)).
  exists (P ++ (av_apis more ++ (av_apis (cv_ignored cv) ++ fns))). split; [rewrite !extend_app; reflexivity|].
  eapply adds_ext; [intros a; symmetry; apply anywhere_split|].
  apply adds_app; [exact A|]. apply adds_app; [apply grows_new_adds, E|]. apply adds_app; [apply grows_new_adds, G|].
  destruct F as (fs & Q & F). cbn [app] in Q. unfold fns. rewrite Q. split.
  - intros a I. apply in_map_iff in I as ((id & o) & <- & I). apply F in I as [(it & I & D) O]. cbn [fst snd] in *.
    exists it. split; [exact I|]. exists id, (sget id (cv_receivers cv)). split; [exact D|]. split.
    + destruct (R id) as [(b & ty & Ib & M & S)|[N S]]; rewrite S; cbn [receiver_ok sget].
      * exists b, ty; auto.
      * exact N.
    + exists o. split; [exact O|reflexivity].
  - intros a (it & I & id & r & D & _ & o & O & ->). rewrite map_map.
    apply in_map_iff. exists (id, o). split; [reflexivity|]. apply F. cbn; eauto.
Qed.

Lemma all_items_ok it : item_ok it.
Proof.
  induction it as [it L|id l IH] using item_ind'.
  - intros ns apis cv apis' cv' r H.
    replace (p_item it ns apis cv) with (p_leaf it ns apis cv) in H by (destruct it; try reflexivity; destruct (L _ _ eq_refl)).
    apply leaf_ok in H as (P & E & A & C & R); [|exact L]. exists P. split; [exact E|]. split; [|auto].
    eapply adds_ext; [|exact A]. intros a; unfold contrib, inside. split; [auto|].
    intros [X|(id & sub & X & _)]; [exact X|destruct (L _ _ X)].
  - intros ns apis cv apis' cv' r H. rewrite p_item_mod in H.
    destruct (p_loop (ns ++ [id]) l apis conv_new av_new) as [[[a1 c1] m1]|] eqn:E; [|discriminate H].
    apply finish_ok in E as (P & Q & A); [|exact IH]. injection H as <- <- <-. exists P. split; [exact Q|]. split.
    + eapply adds_ext; [|exact A]. intros a; unfold contrib, inside. split.
      * intros X; right; eauto.
      * intros [X|(id' & sub & X & Y)]; [inversion X|]. injection X as <- <-. exact Y.
    + split; [apply conv_step_refl; discriminate|]. apply err_none. intros a X; inversion X.
Qed.

Lemma mod_items_ok ns l apis apis' : parse_mod_items builtin lexes reserved cb cfg ns l apis = Some apis' ->
  exists P, apis' = extend apis P /\ adds (anywhere ns l) P.
Proof.
  unfold parse_mod_items. destruct (p_loop ns l apis conv_new av_new) as [[[a c] m]|] eqn:E; [|discriminate].
  intros H; injection H as <-. apply finish_ok in E; [exact E|]. apply Forall_forall; intros it _; apply all_items_ok.
Qed.

(** ** Configuration *)

(** The APIs which come from the configuration alone. *)
Definition from_config (a : api) : Prop :=
  (cf_exclude_utilities cfg = false /\ a = API (AN (QN [] (get_makestring_name hash cfg)) None) KStringConstructor)
  \/ (exists s, In s (cf_subclasses cfg) /\ a = API (AN (QN [] (sc_subclass s)) None) (KSubclass (new_from_cpp_name (sc_superclass s))))
  \/ (exists f ds, In f (cf_extern_rust_funs cfg) /\ fun_deps f = XOk ds /\ a = API (AN (QN [] (sig_ident (rf_sig f))) None) (KRustFn ds))
  \/ (exists p, In p (cf_rust_types cfg) /\ a = API (AN (QN [] (last p "")) None) KRustType)
  \/ (exists k, In k (cf_concretes cfg) /\ a = API (AN (QN [] (snd k)) None) (KConcreteType (fst k))).

Lemma rust_funs_ok l : forall apis apis', add_rust_funs builtin fun_deps l apis = ODone apis' ->
  exists P, apis' = extend apis P
    /\ (forall a, In a P <-> exists f ds, In f l /\ fun_deps f = XOk ds /\ a = API (AN (QN [] (sig_ident (rf_sig f))) None) (KRustFn ds)).
Proof.
  induction l as [|f l IH]; intros apis apis' H; cbn in H.
  - injection H as <-. exists []. split; [reflexivity|]. intros a; split; [intros []|intros (f & ds & [] & _)].
  - destruct (fun_deps f) as [ds|e|] eqn:D; [|discriminate H|discriminate H].
    apply IH in H as (P & -> & X). eexists (_ :: P). split; [reflexivity|]. intros a; cbn [In]. rewrite X. split.
    + intros [<-|(g & ds' & I & G & E)]; [exists f, ds; auto|exists g, ds'; auto].
    + intros (g & ds' & [<-|I] & G & E); [left; rewrite D in G; injection G as <-; auto|right; exists g, ds'; auto].
Qed.

Lemma dedup_aux_In l : forall seen x, In x (dedup_aux seen l) <-> In x l /\ ~ In x seen.
Proof.
  induction l as [|y l IH]; intros seen x; cbn [dedup_aux In]; [tauto|].
  destruct (in_dec (list_eq_dec string_dec) y seen) as [I|N].
  - rewrite IH. split; [tauto|]. intros [[->|H] K]; [contradiction|auto].
  - cbn [In]. rewrite IH. cbn [In]. split.
    + intros [->|[H K]]; [auto|]. split; [auto|]. intros X; apply K; auto.
    + intros [[->|H] K]; [auto|]. destruct (list_eq_dec string_dec y x) as [->|D]; [auto|]. right; split; [auto|]. intros [X|X]; auto.
Qed.

Lemma config_ok apis : 
  add_apis_from_config builtin cfg fun_deps (if cf_exclude_utilities cfg then av_new else generate_utilities builtin cfg hash av_new) = ODone apis ->
  exists P, apis = extend av_new P /\ (forall a, In a P <-> from_config a).
Proof.
  unfold add_apis_from_config. intros H.
  destruct (add_rust_funs builtin fun_deps _ _) as [a1|e|] eqn:E; [|discriminate H|discriminate H].
  apply rust_funs_ok in E as (P & -> & X). injection H as <-.
  set (U := if cf_exclude_utilities cfg then [] else [API (AN (QN [] (get_makestring_name hash cfg)) None) KStringConstructor]).
  assert (EU : (if cf_exclude_utilities cfg then av_new else generate_utilities builtin cfg hash av_new) = extend av_new U).
  { unfold U. destruct (cf_exclude_utilities cfg); reflexivity. }
  rewrite EU, <- !extend_app, <- ?app_assoc. eexists. split; [reflexivity|].
  intros a. rewrite !in_app_iff, X, !in_map_iff. unfold from_config, U.
  assert (UU : In a (if cf_exclude_utilities cfg then [] else [API (AN (QN [] (get_makestring_name hash cfg)) None) KStringConstructor])
    <-> (cf_exclude_utilities cfg = false /\ a = API (AN (QN [] (get_makestring_name hash cfg)) None) KStringConstructor)).
  { destruct (cf_exclude_utilities cfg); cbn; intuition congruence. }
  rewrite UU. unfold dedup.
  split.
  - intros [H|[(s & <- & I)|[H|[(p & <- & I)|(k & <- & I)]]]]; [auto|right; left; eauto|auto| |].
    + apply dedup_aux_In in I as [I _]. do 3 right; left; eauto.
    + do 4 right; eauto.
  - intros [H|[(s & I & ->)|[H|[(p & I & ->)|(k & I & ->)]]]]; [auto|right; left; eauto|auto| |].
    + do 3 right; left. exists p. split; [reflexivity|]. apply dedup_aux_In. auto.
    + do 4 right; eauto.
Qed.

(** Everything before replacing the external types. *)
Lemma items_ok items apis : parse_items builtin lexes reserved cb cfg hash fun_deps items = ODone apis ->
  exists root before P,
    find_items_in_root items = Some root
    /\ before = extend av_new P
    /\ adds (fun a => from_config a \/ anywhere [] (match root with Some l => l | None => [] end) a) P
    /\ unobeyed cfg before = None
    /\ apis = replace_extern_cpp_types builtin cfg before.
Proof.
  unfold parse_items. destruct (find_items_in_root items) as [root|]; [|discriminate].
  destruct (add_apis_from_config _ _ _ _) as [a1|e|] eqn:E; [|discriminate|discriminate].
  destruct (parse_mod_items _ _ _ _ _ _ _ a1) as [a2|] eqn:M; [|discriminate].
  destruct (unobeyed cfg a2) as [d|] eqn:U; [discriminate|]. intros H; injection H as <-.
  apply config_ok in E as (P1 & -> & C). apply mod_items_ok in M as (P2 & -> & A).
  exists root, (extend (extend av_new P1) P2), (P1 ++ P2). split; [reflexivity|]. split; [symmetry; apply extend_app|].
  split; [|auto]. apply adds_app; [|exact A]. split; [intros a; apply C|intros a H; apply in_map, C, H].
Qed.
End S.
