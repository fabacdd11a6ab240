From Verif Require Import Base QNamesModel ApiModel TypesModel CppTypesModel ConcreteNamesModel SynthNamesProofs.

Definition us_free (s : string) : Prop := any_char (fun c => Ascii.eqb c "_") s = false.

Lemma split_us_free s : forall acc, us_free acc -> Forall us_free (split_us acc s).
Proof.
  induction s as [|c s IH]; intros acc H; cbn [split_us]; [repeat constructor; exact H|].
  destruct (Ascii.eqb c "_") eqn:E; [constructor; [exact H | apply IH; reflexivity]|].
  apply IH. unfold us_free in *. rewrite any_char_app, H. cbn. rewrite E. reflexivity.
Qed.
Lemma split_us_last s : forall acc, split_us acc (s +++ "_AutocxxConcrete") = split_us acc s ++ ["AutocxxConcrete"].
Proof.
  induction s as [|c s IH]; intros acc; [reflexivity|].
  change (String c s +++ "_AutocxxConcrete") with (String c (s +++ "_AutocxxConcrete")). cbn [split_us].
  destruct (Ascii.eqb c "_"); rewrite IH; reflexivity.
Qed.
Lemma join_snoc_ends sep l x : exists p, join sep (l ++ [x]) = p +++ x.
Proof.
  induction l as [|a l [p IH]]; [exists ""; reflexivity|].
  change ((a :: l) ++ [x]) with (a :: (l ++ [x])).
  assert (J : join sep (a :: (l ++ [x])) = a +++ sep +++ join sep (l ++ [x])) by (destruct l; reflexivity).
  rewrite J, IH. exists (a +++ sep +++ p). rewrite !sapp_assoc. reflexivity.
Qed.
Lemma synthetic_ident_ends d : exists p, synthetic_ident d = p +++ "AutocxxConcrete".
Proof.
  unfold synthetic_ident. rewrite split_us_last, filter_app. cbn [filter String.eqb negb]. apply join_snoc_ends.
Qed.
Lemma any_digit_dec k : any_char is_digit (dec k) = true.
Proof.
  pose proof (dec_digits k) as D. pose proof (dec_nonempty k) as N. destruct (dec k) as [|c s]; [congruence|].
  cbn [all_chars any_char] in *. apply andb_true_iff in D. rewrite (proj1 D). reflexivity.
Qed.
Lemma synthetic_not_numbered d k : synthetic_ident d <> "AutocxxConcrete" +++ dec k.
Proof.
  destruct (synthetic_ident_ends d) as [p E]. rewrite E. intros H.
  destruct (sapp_cases _ _ _ _ H) as [[t [T1 T2]]|[t [T1 T2]]].
  - pose proof (dec_digits k) as D. rewrite T2, all_chars_app in D. apply andb_true_iff in D.
    destruct D as [_ D]. discriminate D.
  - assert (X : any_char is_digit "AutocxxConcrete" = true); [|discriminate X].
    rewrite T2, any_char_app, any_digit_dec. apply orb_true_r.
Qed.

Lemma contains_uu_skip x r : us_free x -> contains "__" (x +++ r) = contains "__" r.
Proof.
  induction x as [|c x IH]; intros H; [reflexivity|]. unfold us_free in H. cbn [any_char] in H.
  apply orb_false_iff in H. destruct H as [Hc Hx]. change (String c x +++ r) with (String c (x +++ r)).
  cbn [contains]. rewrite IH by exact Hx.
  replace (starts_with "__" (String c (x +++ r))) with false; [reflexivity|].
  rewrite starts_with_cons, Ascii.eqb_sym, Hc. reflexivity.
Qed.
Lemma join_no_uu l : Forall us_free l -> Forall (fun s => s <> "") l -> contains "__" (join "_" l) = false.
Proof.
  induction l as [|x l IH]; intros F N; [reflexivity|]. inversion F; subst. inversion N; subst.
  destruct l as [|y l].
  - cbn [join]. rewrite <- (app_empty_r x), contains_uu_skip by assumption. reflexivity.
  - change (join "_" (x :: y :: l)) with (x +++ String "_" (join "_" (y :: l))).
    rewrite contains_uu_skip by assumption. cbn [contains]. fold contains.
    rewrite IH by assumption. rewrite orb_false_r.
    assert (U : us_free y) by (inversion H2; assumption). assert (V : y <> "") by (inversion H4; assumption). destruct y as [|c y]; [congruence|].
    assert (E : exists r, join "_" (String c y :: l) = String c r).
    { destruct l; [exists y; reflexivity | eexists; reflexivity]. }
    destruct E as [r E]. rewrite E. rewrite !starts_with_cons. unfold us_free in U. cbn [any_char] in U.
    apply orb_false_iff in U. rewrite (Ascii.eqb_sym "_" c), (proj1 U). reflexivity.
Qed.
Lemma synthetic_no_uu d : contains "__" (synthetic_ident d) = false.
Proof.
  apply join_no_uu.
  - apply Forall_forall. intros x Hx. apply filter_In in Hx.
    pose proof (split_us_free (sanitise d +++ "_AutocxxConcrete") "" eq_refl) as F. rewrite Forall_forall in F.
    apply F, Hx.
  - apply Forall_forall. intros x Hx ->. apply filter_In in Hx. destruct Hx as [_ Hx]. discriminate Hx.
Qed.

Definition ident_char (c : ascii) : bool := is_alnum c || Ascii.eqb c "_".
Lemma sanitise_chars d : all_chars ident_char (sanitise d) = true.
Proof.
  induction d as [|c d IH]; [reflexivity|]. cbn [sanitise all_chars]. rewrite IH, andb_true_r. unfold ident_char.
  destruct (is_alnum c || Ascii.eqb c "_") eqn:E; [exact E | reflexivity].
Qed.
Lemma split_us_chars s : forall acc, all_chars ident_char acc = true -> all_chars ident_char s = true ->
  Forall (fun x => all_chars ident_char x = true) (split_us acc s).
Proof.
  induction s as [|c s IH]; intros acc H1 H2; cbn [split_us]; [repeat constructor; exact H1|].
  cbn [all_chars] in H2. apply andb_true_iff in H2. destruct H2 as [Hc Hs].
  destruct (Ascii.eqb c "_"); [constructor; [exact H1 | apply IH; [reflexivity | exact Hs]]|].
  apply IH; [|exact Hs]. rewrite all_chars_app, H1. cbn. rewrite Hc. reflexivity.
Qed.
Lemma join_chars l : Forall (fun x => all_chars ident_char x = true) l -> all_chars ident_char (join "_" l) = true.
Proof.
  induction 1 as [|x l Hx H IH]; [reflexivity|]. destruct l as [|y l]; [exact Hx|].
  change (join "_" (x :: y :: l)) with (x +++ "_" +++ join "_" (y :: l)). rewrite !all_chars_app, Hx, IH. reflexivity.
Qed.
Lemma synthetic_chars d : all_chars ident_char (synthetic_ident d) = true.
Proof.
  apply join_chars. apply Forall_forall. intros x Hx. apply filter_In in Hx.
  pose proof (split_us_chars (sanitise d +++ "_AutocxxConcrete") "" eq_refl) as F. rewrite Forall_forall in F.
  apply F; [rewrite all_chars_app, sanitise_chars; reflexivity | apply Hx].
Qed.
Lemma dec_chars k : all_chars ident_char (dec k) = true.
Proof.
  pose proof (dec_digits k) as D. revert D. generalize (dec k). induction s as [|c s IH]; [reflexivity|].
  cbn [all_chars]. intros H. apply andb_true_iff in H. destruct H as [Hc Hs]. rewrite IH by exact Hs.
  rewrite andb_true_r. unfold ident_char, is_alnum. unfold is_digit in Hc. rewrite Hc. reflexivity.
Qed.

Lemma sset_fresh {A} k (v : A) m : sget k m = None -> sset k v m = m ++ [(k, v)].
Proof.
  induction m as [|[k' v'] m IH]; cbn [sget sset]; [reflexivity|].
  destruct (String.eqb k k'); [discriminate|]. intros H. rewrite IH by exact H. reflexivity.
Qed.
Lemma in_nodup_sget {A} k (v : A) m : NoDup (map fst m) -> In (k, v) m -> sget k m = Some v.
Proof.
  induction m as [|[k' v'] m IH]; cbn [sget map fst]; intros N; [intros []|]. inversion N; subst.
  intros [X|X].
  - injection X as -> ->. rewrite String.eqb_refl. reflexivity.
  - destruct (String.eqb k k') eqn:E; [|auto]. apply String.eqb_eq in E; subst.
    exfalso. apply H1. apply in_map_iff. exists (k', v); auto.
Qed.

(** Names are pairwise different, and numbered ones are below the counter. *)
Definition cs_inv (cs : concretes) : Prop :=
  NoDup (map fst cs) /\ NoDup (map (fun p => qn_item (snd p)) cs) /\
  forall p k, In p cs -> qn_item (snd p) = "AutocxxConcrete" +++ dec k -> k < length cs.

Lemma step_inv cs d cs' n b : cs_inv cs -> get_templated_typename cs d = (cs', n, b) ->
  cs_inv cs' /\ sget d cs' = Some n /\ (forall e m, sget e cs = Some m -> sget e cs' = Some m).
Proof.
  intros (I1 & I2 & I3) H. unfold get_templated_typename in H.
  destruct (sget d cs) as [tn|] eqn:G.
  - injection H as <- <- <-. split; [split; [|split]; assumption | split; [exact G | auto]].
  - cbv zeta in H. set (id := if existsb _ cs then _ else _) in H. injection H as <- <- <-.
    split; [|split; [apply sget_sset_same|]].
    + rewrite (sset_fresh _ _ _ G). unfold cs_inv. rewrite !map_app, app_length. cbn [map fst snd qn_item length].
      assert (F : ~ In id (map (fun p => qn_item (snd p)) cs)).
      { unfold id. destruct (existsb _ cs) eqn:E.
        - intros H. apply in_map_iff in H. destruct H as (p & Hp & Hin). specialize (I3 p _ Hin Hp). lia.
        - intros H. apply in_map_iff in H. destruct H as (p & Hp & Hin).
          assert (X : existsb (fun p => String.eqb (qn_item (snd p)) (synthetic_ident d)) cs = true).
          { apply existsb_exists. exists p. split; [exact Hin | apply String.eqb_eq, Hp]. }
          congruence. }
      split; [|split].
      * apply NoDup_app_intro; [exact I1 | repeat constructor; intros [] |].
        intros x Hx [<-|[]]. apply sget_None in G. contradiction.
      * apply NoDup_app_intro; [exact I2 | repeat constructor; intros [] |].
        intros x Hx [<-|[]]. contradiction.
      * intros p k Hp Hk. apply in_app_or in Hp. destruct Hp as [Hp|[<-|[]]].
        -- specialize (I3 p k Hp Hk). lia.
        -- cbn [snd qn_item] in Hk. unfold id in Hk. destruct (existsb _ cs).
           ++ apply sapp_inj_l, dec_inj in Hk. lia.
           ++ destruct (synthetic_not_numbered d k Hk).
    + intros e m He. rewrite sget_sset_other; [exact He | intros ->; congruence].
Qed.

Lemma run_inv : forall defs cs cs' ns, cs_inv cs -> concrete_run cs defs = (cs', ns) ->
  cs_inv cs' /\ Forall2 (fun d n => sget d cs' = Some n) defs ns /\
  (forall e m, sget e cs = Some m -> sget e cs' = Some m).
Proof.
  induction defs as [|d defs IH]; intros cs cs' ns I H; cbn [concrete_run] in H.
  - injection H as <- <-. repeat split; try apply I; [constructor | auto].
  - destruct (get_templated_typename cs d) as [[cs1 n] b] eqn:S.
    destruct (concrete_run cs1 defs) as [cs2 ns2] eqn:R. injection H as <- <-.
    destruct (step_inv _ _ _ _ _ I S) as (I1 & G & M). destruct (IH _ _ _ I1 R) as (I2 & F & M2).
    split; [exact I2|]. split; [constructor; [apply M2, G | exact F] | auto].
Qed.
