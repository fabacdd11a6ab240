(** C09: names handed to cxx are legal and unambiguous. *)
From Verif Require Import Base ApiModel ApiSpec ApiVecModel ApiVecProofs ErrorReporterModel ErrorReporterProofs QNamesModel NameCheckModel NameCheckProofs.

Section Spec.
Variables (lexes reserved : string -> bool).

(** Identifiers that the flat bridge accepts: not a Rust keyword, no double underscore (bindgen's
    own markers excepted), not one of bindgen's anonymous-type names. *)
Definition acceptable (s : string) : Prop :=
  lexes s = true /\ reserved s = false /\
  ((exists a b, s = a +++ "__" +++ b) -> exists t, s = "__bindgen_marker" +++ t) /\
  ~ (exists t, s = "_bindgen_ty_" +++ t).

(** The identifiers an API brings into the bridge: the segments of its name; for types
    and constants also those of its C++ name; for a subclass also those of its superclass.
    APIs of other kinds bring none that this pass is responsible for. *)
Definition idents (a : api) : list string :=
  let own := qn_ns (aname a) ++ [qn_item (aname a)] in
  match api_kind_of a with
  | KTypedef _ _ | KForwardDeclaration _ | KOpaqueTypedef _ | KConst | KEnum | KStruct _ =>
      own ++ match an_cpp (api_info a) with
             | Some c => segment_iter (new_from_cpp_name c)
             | None => []
             end
  | KSubclass sup => own ++ qn_ns sup ++ [qn_item sup]
  | KFunction _ => own
  | _ => []
  end.
Definition acceptable_api (a : api) : Prop := forall s, In s (idents a) -> acceptable s.

(** [a] should survive among [l]: acceptable, and no other acceptable API wants its bridge name. *)
Definition should_survive (l : list api) (a : api) : Prop :=
  acceptable_api a /\
  forall b s, In b l -> acceptable_api b -> aname b <> aname a -> occupies a s -> ~ occupies b s.

(** The same with the model's accessor, used inside proofs only. *)
Definition survives (l : list api) (a : api) : Prop :=
  acceptable_api a /\
  forall b, In b l -> acceptable_api b -> aname b <> aname a ->
    bridge_name a <> None -> bridge_name b <> bridge_name a.
Lemma survives_iff l a : should_survive l a <-> survives l a.
Proof.
  split; intros [A H]; (split; [exact A|]).
  - intros b Hb Ab Nb Na E. destruct (bridge_name a) as [s|] eqn:B; [|congruence].
    apply (H b s Hb Ab Nb); apply occupies_bridge; congruence.
  - intros b s Hb Ab Nb Oa Ob. apply occupies_bridge in Oa, Ob. apply (H b Hb Ab Nb); congruence.
Qed.

Lemma acceptable_iff s : validate_ident_ok_for_cxx lexes reserved s = VOk <-> acceptable s.
Proof.
  rewrite validate_ok. unfold acceptable.
  rewrite <- (contains_spec "__" s), <- (starts_with_spec "__bindgen_marker" s), <- (starts_with_spec "_bindgen_ty_" s).
  assert (B : starts_with "_bindgen_ty_" s = false <-> ~ starts_with "_bindgen_ty_" s = true)
    by (destruct (starts_with "_bindgen_ty_" s); split; congruence).
  rewrite B. reflexivity.
Qed.
Lemma acceptable_api_iff a : check_one lexes reserved a = VOk <-> acceptable_api a.
Proof.
  assert (V : forall segs, validate_all lexes reserved segs = VOk <-> forall s, In s segs -> acceptable s).
  { intros segs. rewrite validate_all_ok. split; intros H s Hs; apply acceptable_iff, H, Hs. }
  assert (A : forall l1 l2, (forall s, In s (l1 ++ l2) -> acceptable s) <->
             (forall s, In s l1 -> acceptable s) /\ (forall s, In s l2 -> acceptable s)).
  { intros l1 l2. split; [intros H; split; intros s Hs; apply H, in_app_iff; auto|].
    intros [H1 H2] s Hs. apply in_app_iff in Hs. destruct Hs; auto. }
  assert (T : forall own o,
    v_and (validate_all lexes reserved own)
          (match o with Some c => validate_all lexes reserved (segment_iter (new_from_cpp_name c)) | None => VOk end) = VOk
    <-> forall s, In s (own ++ match o with Some c => segment_iter (new_from_cpp_name c) | None => [] end) -> acceptable s).
  { intros own [c|]; rewrite v_and_ok, A, V.
    - rewrite V. reflexivity.
    - split; intros [H _]; (split; [exact H|]); [intros s [] | reflexivity]. }
  unfold check_one, acceptable_api, idents.
  destruct (api_kind_of a); try apply T; try (split; [intros _ s [] | reflexivity]).
  - apply V.
  - rewrite v_and_ok, A, !V. reflexivity.
Qed.
End Spec.

Lemma check_names_exact :
  forall builtin lexes reserved l out,
  NoDup (map aname l) ->
  check_names builtin lexes reserved l = Some out ->
  Forall2 (fun a b => api_info b = api_info a /\
                      (survives lexes reserved l a -> b = a) /\
                      (~ survives lexes reserved l a -> is_ignored b = true))
          l (av_apis out).
Proof.
  intros builtin lexes reserved l out N H. destruct (check_names_apis builtin lexes reserved l out N H) as [-> P].
  set (o1 := out1 builtin lexes reserved). set (inter := map o1 l).
  assert (N1 : NoDup (map aname inter)).
  { unfold inter. rewrite (map_names o1); [exact N | apply out1_name]. }
  assert (O1 : forall a, In a l -> acceptable_api lexes reserved a -> o1 a = a).
  { intros a Ha A. unfold o1, out1. apply acceptable_api_iff in A. now rewrite A. }
  assert (O1' : forall a, In a l -> (acceptable_api lexes reserved a /\ o1 a = a) \/
                 (~ acceptable_api lexes reserved a /\ exists e, o1 a = ignored_as builtin a e)).
  { intros a Ha. destruct (check_one lexes reserved a) eqn:E.
    - left. apply acceptable_api_iff in E. auto.
    - right. split; [rewrite <- acceptable_api_iff; congruence|]. exists e. unfold o1, out1. now rewrite E.
    - elim (P a Ha E). }
  assert (G : forall a, In a l ->
     api_info (out2 builtin inter (o1 a)) = api_info a /\
     (survives lexes reserved l a -> out2 builtin inter (o1 a) = a) /\
     (~ survives lexes reserved l a -> is_ignored (out2 builtin inter (o1 a)) = true)).
  { intros a Ha. split; [rewrite out2_name; apply out1_name|].
    destruct (O1' a Ha) as [[A E]|[A [e E]]]; rewrite E.
    - split.
      + intros [_ S]. unfold out2. destruct (bridge_name a) as [bn|] eqn:B; [|reflexivity].
        destruct (1 <? length (names_found inter bn)) eqn:L; [|reflexivity]. apply Nat.ltb_lt in L.
        destruct (names_found_length_inv inter bn a N1) as (b & Hb & Nb & Bb); auto.
        { unfold inter. rewrite <- E. apply in_map, Ha. }
        unfold inter in Hb. apply in_map_iff in Hb. destruct Hb as [b0 [Eb Hb]]. subst b.
        destruct (O1' b0 Hb) as [[A0 E0]|[_ [e0 E0]]]; rewrite E0 in Nb, Bb; [|discriminate Bb].
        elim (S b0 Hb A0 Nb); [congruence | congruence].
      + intros S. unfold out2. destruct (bridge_name a) as [bn|] eqn:B.
        * destruct (1 <? length (names_found inter bn)) eqn:L; [reflexivity|]. apply Nat.ltb_ge in L.
          elim S. split; [exact A|]. intros b Hb Ab Nb _ Eb.
          assert (X : 1 < length (names_found inter bn)); [|lia].
          apply (names_found_length inter bn a b).
          -- unfold inter. rewrite <- E. apply in_map, Ha.
          -- unfold inter. rewrite <- (O1 b Hb Ab). apply in_map, Hb.
          -- intros ->. congruence.
          -- exact B.
          -- congruence.
        * elim S. split; [exact A|]. intros b _ _ _ X. congruence.
    - assert (X : out2 builtin inter (ignored_as builtin a e) = ignored_as builtin a e) by reflexivity.
      rewrite X. split; [intros [A' _]; contradiction | intros _; reflexivity]. }
  apply Forall2_map_intro. exact G.
Qed.

(** Exact outcome: the result has one API for each input, in order and under the same name; those
    that should survive are unchanged, all others are ignored items. *)
Theorem c09_exactly_the_bad_are_ignored :
  forall builtin lexes reserved l out,
  NoDup (map aname l) ->
  check_names builtin lexes reserved l = Some out ->
  Forall2 (fun a b => api_info b = api_info a /\
                      (should_survive lexes reserved l a -> b = a) /\
                      (~ should_survive lexes reserved l a -> ignored b))
          l (av_apis out).
Proof.
  intros builtin lexes reserved l out N H.
  eapply Forall2_mono; [|exact (check_names_exact builtin lexes reserved l out N H)].
  intros a b _ _ (H1 & H2 & H3). split; [exact H1|]. rewrite survives_iff, ignored_is. auto.
Qed.
Print Assumptions c09_exactly_the_bad_are_ignored.

(** What survives is acceptable and unambiguous. *)
Theorem c09_survivors_legal_and_unambiguous :
  forall builtin lexes reserved l out,
  NoDup (map aname l) ->
  check_names builtin lexes reserved l = Some out ->
  (forall b, In b (av_apis out) -> acceptable_api lexes reserved b) /\
  (forall b c s, In b (av_apis out) -> In c (av_apis out) -> occupies b s -> occupies c s -> b = c).
Proof.
  intros builtin lexes reserved l out N H.
  assert (F := check_names_exact builtin lexes reserved l out N H).
  assert (D : forall a, In a l -> survives lexes reserved l a \/ ~ survives lexes reserved l a).
  { (* decidable: acceptability is a computation, bridge names are compared *)
    intros a Ha.
    assert (DA : forall b, acceptable_api lexes reserved b \/ ~ acceptable_api lexes reserved b).
    { intros b. rewrite <- acceptable_api_iff. destruct (check_one lexes reserved b); [left; reflexivity | right | right]; discriminate. }
    destruct (DA a) as [A|A]; [|right; intros [X _]; contradiction].
    destruct (bridge_name a) as [bn|] eqn:B.
    - assert (K : (forall b, In b l -> acceptable_api lexes reserved b -> aname b <> aname a -> bridge_name b <> Some bn) \/
                  exists b, In b l /\ acceptable_api lexes reserved b /\ aname b <> aname a /\ bridge_name b = Some bn).
      { clear - DA. induction l as [|x l IH]; [left; intros b []|].
        destruct IH as [IH|(b & H1 & H2 & H3 & H4)]; [|right; exists b; exact (conj (or_intror H1) (conj H2 (conj H3 H4)))].
        destruct (DA x) as [A|A]; [|left; intros b [<-|Hb]; [contradiction | apply IH, Hb]].
        destruct (qname_eq_dec (aname x) (aname a)) as [E|E]; [left; intros b [<-|Hb]; [congruence | apply IH, Hb]|].
        destruct (bridge_name x) as [bx|] eqn:Bx.
        - destruct (string_dec bx bn) as [->|Nb]; [right; exists x; exact (conj (or_introl eq_refl) (conj A (conj E Bx)))|].
          left; intros b [<-|Hb]; [congruence | apply IH, Hb].
        - left; intros b [<-|Hb]; [congruence | apply IH, Hb]. }
      destruct K as [K|(b & H1 & H2 & H3 & H4)].
      + left. split; [exact A|]. intros b Hb Ab Nb _. rewrite B. apply K; assumption.
      + right. intros [_ S]. apply (S b H1 H2 H3); congruence.
    - left. split; [exact A|]. intros b _ _ _ X. congruence. }
  assert (I : forall b, is_ignored b = true -> acceptable_api lexes reserved b /\ bridge_name b = None).
  { intros b Hb. unfold is_ignored in Hb. unfold acceptable_api, idents, bridge_name.
    destruct (api_kind_of b); try discriminate. split; [intros s [] | reflexivity]. }
  split.
  - intros b Hb. destruct (Forall2_in_r _ _ _ b F Hb) as (a & Ha & _ & S1 & S2).
    destruct (D a Ha) as [S|S].
    + rewrite (S1 S). apply S.
    + apply I, S2, S.
  - intros b c s0 Hb Hc Ob Oc. apply occupies_bridge in Ob, Oc.
    assert (Bb : bridge_name b <> None) by congruence. assert (E : bridge_name b = bridge_name c) by congruence.
    destruct (Forall2_in_r _ _ _ b F Hb) as (a & Ha & _ & S1 & S2).
    destruct (Forall2_in_r _ _ _ c F Hc) as (d & Hd & _ & T1 & T2).
    destruct (D a Ha) as [S|S]; [|destruct (I b (S2 S)) as [_ X]; congruence].
    destruct (D d Hd) as [T|T]; [|destruct (I c (T2 T)) as [_ X]; congruence].
    rewrite (S1 S) in *. rewrite (T1 T) in *.
    destruct (qname_eq_dec (aname d) (aname a)) as [Ed|Nd].
    + eapply NoDup_map_inj_in; eauto.
    + destruct S as [_ S]. elim (S d Hd (proj1 T) Nd Bb). congruence.
Qed.
Print Assumptions c09_survivors_legal_and_unambiguous.

(** Name checking panics only on a name that is not an identifier at all. *)
Theorem c09_panics_only_on_non_identifiers :
  forall builtin lexes reserved l,
  NoDup (map aname l) ->
  (forall a s, In a l -> In s (idents a) -> lexes s = true) ->
  check_names builtin lexes reserved l <> None.
Proof.
  intros builtin lexes reserved l N L. rewrite check_names_spec by exact N.
  destruct (existsb _ l) eqn:E; [|discriminate]. exfalso.
  apply existsb_exists in E. destruct E as [a [Ha P]]. specialize (L a).
  assert (V : forall segs, (forall s, In s segs -> lexes s = true) -> validate_all lexes reserved segs <> VPanic).
  { induction segs as [|x segs IH]; intros X; cbn [validate_all]; [discriminate|].
    assert (Y : validate_ident_ok_for_cxx lexes reserved x <> VPanic).
    { unfold validate_ident_ok_for_cxx. rewrite X by (left; reflexivity). simpl.
      repeat match goal with |- (if ?b then _ else _) <> _ => destruct b end; discriminate. }
    destruct (validate_ident_ok_for_cxx lexes reserved x); [|discriminate|congruence].
    apply IH. intros s Hs. apply X. right; exact Hs. }
  assert (W : forall l1 l2, (forall s, In s (l1 ++ l2) -> lexes s = true) ->
     v_and (validate_all lexes reserved l1) (validate_all lexes reserved l2) <> VPanic).
  { intros l1 l2 X. assert (X1 := V l1 ltac:(intros s Hs; apply X, in_app_iff; auto)).
    assert (X2 := V l2 ltac:(intros s Hs; apply X, in_app_iff; auto)).
    destruct (validate_all lexes reserved l1); simpl; auto. }
  assert (Z : check_one lexes reserved a <> VPanic).
  { unfold check_one, idents in *. specialize (fun s => L s Ha).
    destruct (api_kind_of a); try discriminate;
      try (destruct (an_cpp (api_info a)) as [c|]; [apply (W _ _ L) | apply (W _ [] L)]).
    - apply V, L.
    - apply (W _ _ L). }
  destruct (check_one lexes reserved a); discriminate || congruence.
Qed.
Print Assumptions c09_panics_only_on_non_identifiers.

(** The APIs of the other kinds are not checked: their names may hold double underscores.
    Also bindgen's markers pass although cxx rejects every double underscore. *)
Theorem c09_unchecked_names_refuted :
  exists l out b, NoDup (map aname l) /\
    check_names (fun _ => false) (fun _ => true) (fun _ => false) l = Some out /\
    In b (av_apis out) /\ is_ignored b = false /\ contains "__" (qn_item (aname b)) = true.
Proof.
  set (b := API (AN (QN [] "My__Type") None) (KExternCppType false)).
  exists [b], (AV [b] [aname b]), b. repeat split.
  - repeat constructor; intros [].
  - left; reflexivity.
Qed.

Example c09_nonvacuous :
  let st n := API (AN n None) (KStruct {| st_kind := NonPod; st_bases := []; st_field_deps := [];
                 st_field_def_deps := []; st_num_generics := 0; st_ctor_deps := [] |}) in
  let l := [st (QN ["a"] "T"); st (QN ["b"] "T"); st (QN [] "U"); st (QN [] "V__W"); st (QN [] "fn")] in
  NoDup (map aname l) /\
  exists out, check_names (fun _ => false) (fun _ => true) (String.eqb "fn") l = Some out /\
    map is_ignored (av_apis out) = [true; true; false; true; true] /\ map aname (av_apis out) = map aname l.
Proof.
  split.
  - repeat constructor; simpl; intuition discriminate.
  - eexists. split; [vm_compute; reflexivity|]. split; reflexivity.
Qed.
