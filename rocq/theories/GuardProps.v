(** C98: the guard of the additional C++ headers, when they are included twice and when those of several blocks are. *)
From Verif Require Import Base QNamesModel ApiModel TypesModel ConversionModel CppTypesModel CppWrapperModel FrontModel FnDriverModel FrontProps CppGenModel CppGenProps.
From Verif Require EngineModel EngineProps.

(** ** What a C++ preprocessor makes of a text
    This is not code of /repo but part of the specification: the lines which remain once the conditional directives have been followed, and
    what is defined then. [st] says of each conditional group which is open whether its lines are kept. Conditions other than [#ifndef] are
    taken to hold. [#undef], [#else], [#include] and macros in text are left alone: a line of theirs is kept as it is. *)
Definition after (n : nat) (s : string) : string := String.substring n (String.length s - n) s.
Fixpoint preprocess (defs : list string) (st : list bool) (ls : list string) : list string * list string :=
  match ls with
  | [] => ([], defs)
  | l :: r =>
      if starts_with "#ifndef " l then preprocess defs (negb (smem (after 8 l) defs) :: st) r
      else if starts_with "#if" l then preprocess defs (true :: st) r
      else if starts_with "#endif" l then preprocess defs (List.tl st) r
      else if forallb (fun b => b) st then
        if starts_with "#define " l then preprocess (after 8 l :: defs) st r
        else let (o, d) := preprocess defs st r in (l :: o, d)
      else preprocess defs st r
  end.
(** The conditional groups still open after some lines, if none was closed which is not among them. *)
Fixpoint open_groups (n : nat) (ls : list string) : option nat :=
  match ls with
  | [] => Some n
  | l :: r =>
      if starts_with "#if" l then open_groups (S n) r
      else if starts_with "#endif" l then match n with S m => open_groups m r | 0 => None end
      else open_groups n r
  end.
Definition balanced (ls : list string) : Prop := open_groups 0 ls = Some 0.

(** The lines of a header, and those between its guard and the end of it. *)
Definition header_lines (p : file_pair) : list string := EngineModel.fields (fp_header p).
Definition inside (p : file_pair) : list string := removelast (removelast (skipn 6 (header_lines p))).
Definition preamble : list string := ["// Generated using autocxx - do not edit directly."; "// @generated."; ""; ""].

(** ** Lines *)
Lemma fields_split a b : EngineModel.fields (a +++ nl +++ b) = EngineModel.fields a ++ EngineModel.fields b.
Proof.
  induction a as [|c a IH]; [reflexivity|].
  change (EngineModel.fields (String c (a +++ nl +++ b)) = EngineModel.fields (String c a) ++ EngineModel.fields b). cbn [EngineModel.fields].
  destruct (EngineModel.is_nl c); [cbn [app]; f_equal; exact IH|]. rewrite IH.
  destruct (EngineModel.fields a) eqn:E; [destruct (EngineProps.fields_nonempty _ E)|]. reflexivity.
Qed.
Definition plain_line (x : string) : Prop := forallb (fun c => negb (EngineModel.is_nl c)) (list_ascii_of_string x) = true.
Lemma plain_fields x : plain_line x -> EngineModel.fields x = [x].
Proof.
  unfold plain_line. induction x as [|c x IH]; intros P; [reflexivity|]. cbn [list_ascii_of_string forallb] in P. apply andb_prop in P as [P1 P2].
  cbn [EngineModel.fields]. destruct (EngineModel.is_nl c); [discriminate|]. rewrite (IH P2). reflexivity.
Qed.
Lemma removelast_two {A} (l : list A) x y : removelast (removelast (l ++ [x; y])) = l.
Proof.
  replace (l ++ [x; y]) with ((l ++ [x]) ++ [y]) by (rewrite <- app_assoc; reflexivity). rewrite !removelast_last. reflexivity.
Qed.
Lemma header_shape o inclusions l p : generate_cpp_code o inclusions l = COk (Some p) ->
  header_lines p = preamble ++ ["#ifndef __AUTOCXXGEN_H__"; "#define __AUTOCXXGEN_H__"] ++ inside p ++ ["#endif // __AUTOCXXGEN_H__"; ""].
Proof.
  unfold generate_cpp_code. intros G. destruct (add_needs o (names_of_apis l) (filter needs_cpp_codegen l)) as [ex|e|]; cbn [cbind] in G; [|discriminate..].
  injection G as G. unfold generate_files in G. destruct ex as [|x ex]; [discriminate|]. remember (x :: ex) as l0 eqn:EL. clear EL. injection G as G.
  assert (H : exists body, header_lines p = preamble ++ ["#ifndef __AUTOCXXGEN_H__"; "#define __AUTOCXXGEN_H__"] ++ body ++ ["#endif // __AUTOCXXGEN_H__"; ""]).
  { subst p. unfold header_lines. cbn [fp_header]. unfold concat_items.
    generalize (join nl (collect_headers o ex_headers l0)) (join nl (somes (map ex_type l0))) (join nl (somes (map ex_decl l0))). intros h t d.
    exists ("" :: EngineModel.fields h ++ EngineModel.fields inclusions ++ EngineModel.fields t ++ [""] ++ EngineModel.fields d).
    match goal with |- _ = ?r => transitivity (EngineModel.fields ("// Generated using autocxx - do not edit directly." +++ nl +++ "// @generated." +++ nl +++ "" +++ nl +++ "" +++ nl +++
      "#ifndef __AUTOCXXGEN_H__" +++ nl +++ "#define __AUTOCXXGEN_H__" +++ nl +++ "" +++ nl +++ h +++ nl +++ inclusions +++ nl +++ t +++ nl +++ "" +++ nl +++ d +++ nl +++
      "#endif // __AUTOCXXGEN_H__" +++ nl +++ "")) end.
    { f_equal. rewrite !sapp_assoc. reflexivity. }
    rewrite (fields_split "// Generated using autocxx - do not edit directly."), (fields_split "// @generated.").
    do 2 rewrite (fields_split ""). rewrite (fields_split "#ifndef __AUTOCXXGEN_H__"), (fields_split "#define __AUTOCXXGEN_H__"), (fields_split ""), (fields_split h), (fields_split inclusions),
      (fields_split t), (fields_split ""), (fields_split d), (fields_split "#endif // __AUTOCXXGEN_H__").
    rewrite (plain_fields "// Generated using autocxx - do not edit directly."), (plain_fields "// @generated."), (plain_fields "#ifndef __AUTOCXXGEN_H__"),
      (plain_fields "#define __AUTOCXXGEN_H__"), (plain_fields "#endif // __AUTOCXXGEN_H__"), (plain_fields "") by (vm_compute; reflexivity). unfold preamble. cbn [app]. rewrite <- !app_assoc. cbn [app]. reflexivity. }
  destruct H as [body H]. unfold inside. rewrite H. unfold preamble. cbn [app skipn]. rewrite removelast_two. reflexivity.
Qed.

(** ** Preprocessing *)
Lemma ifndef_if l : starts_with "#ifndef " l = true -> starts_with "#if" l = true.
Proof. rewrite !starts_with_spec. intros [t ->]. exists ("ndef " +++ t). reflexivity. Qed.
Lemma no_hash p l : starts_with "#" l = false -> starts_with (String "#" p) l = false.
Proof.
  intros H. destruct (starts_with (String "#" p) l) eqn:E; [|reflexivity]. apply starts_with_spec in E as [t ->].
  assert (X : starts_with "#" (String "#" p +++ t) = true) by (apply starts_with_spec; exists (p +++ t); reflexivity). congruence.
Qed.
Lemma pp_text defs st l r : starts_with "#" l = false -> forallb (fun b => b) st = true ->
  preprocess defs st (l :: r) = (l :: fst (preprocess defs st r), snd (preprocess defs st r)).
Proof.
  intros H A. cbn [preprocess]. rewrite (no_hash "ifndef " _ H), (no_hash "if" _ H), (no_hash "endif" _ H), A, (no_hash "define " _ H).
  destruct (preprocess defs st r). reflexivity.
Qed.
Lemma pp_opened defs r : preprocess defs [] (preamble ++ ["#ifndef __AUTOCXXGEN_H__"; "#define __AUTOCXXGEN_H__"] ++ r) =
  let d := if smem "__AUTOCXXGEN_H__" defs then defs else "__AUTOCXXGEN_H__" :: defs in
  let p := preprocess d [negb (smem "__AUTOCXXGEN_H__" defs)] r in (preamble ++ fst p, snd p).
Proof.
  unfold preamble. cbn [app]. do 4 (rewrite pp_text by reflexivity).
  assert (Q : preprocess defs [] ("#ifndef __AUTOCXXGEN_H__" :: "#define __AUTOCXXGEN_H__" :: r) =
    preprocess (if smem "__AUTOCXXGEN_H__" defs then defs else "__AUTOCXXGEN_H__" :: defs) [negb (smem "__AUTOCXXGEN_H__" defs)] r).
  { change (preprocess defs [] ("#ifndef __AUTOCXXGEN_H__" :: "#define __AUTOCXXGEN_H__" :: r))
      with (preprocess defs [negb (smem "__AUTOCXXGEN_H__" defs)] ("#define __AUTOCXXGEN_H__" :: r)).
    destruct (smem "__AUTOCXXGEN_H__" defs); reflexivity. }
  rewrite Q. reflexivity.
Qed.
Lemma pp_closed defs b : preprocess defs [b] ["#endif // __AUTOCXXGEN_H__"; ""] = ([""], defs).
Proof. reflexivity. Qed.
Lemma skip_group st ls : forall n d k defs, open_groups n ls = Some k -> List.length d = n ->
  forall rest, exists d', List.length d' = k /\ preprocess defs (d ++ false :: st) (ls ++ rest) = preprocess defs (d' ++ false :: st) rest.
Proof.
  induction ls as [|l ls IH]; intros n d k defs B L rest.
  - injection B as <-. exists d. split; [exact L|reflexivity].
  - cbn [open_groups] in B. cbn [app preprocess]. destruct (starts_with "#ifndef " l) eqn:E1.
    { rewrite (ifndef_if _ E1) in B. apply (IH _ (negb (smem (after 8 l) defs) :: d) _ defs B). cbn. now rewrite L. }
    destruct (starts_with "#if" l) eqn:E2. { apply (IH _ (true :: d) _ defs B). cbn. now rewrite L. }
    destruct (starts_with "#endif" l) eqn:E3.
    { destruct n as [|n]; [discriminate|]. destruct d as [|b d]; [discriminate|]. cbn [app List.tl]. apply (IH n d _ defs B). now injection L. }
    assert (F : forallb (fun b : bool => b) (d ++ false :: st) = false).
    { rewrite forallb_app. cbn. apply andb_false_r. }
    rewrite F. apply (IH n d _ defs B L).
Qed.
(** A text in which groups are closed leaves the groups which were open, and what was defined stays defined. *)
Lemma pass_group st ls : forall n d k defs, open_groups n ls = Some k -> List.length d = n -> forall rest, exists d' out defs', List.length d' = k /\ incl defs defs' /\
  preprocess defs (d ++ st) ls = (out, defs') /\
  preprocess defs (d ++ st) (ls ++ rest) = (out ++ fst (preprocess defs' (d' ++ st) rest), snd (preprocess defs' (d' ++ st) rest)).
Proof.
  induction ls as [|l ls IH]; intros n d k defs B L rest.
  - injection B as <-. exists d, [], defs. split; [exact L|]. split; [apply incl_refl|]. split; [reflexivity|]. cbn [app]. apply surjective_pairing.
  - cbn [open_groups] in B. cbn [app preprocess]. destruct (starts_with "#ifndef " l) eqn:E1.
    { rewrite (ifndef_if _ E1) in B. apply (IH _ (negb (smem (after 8 l) defs) :: d) _ defs B). cbn. now rewrite L. }
    destruct (starts_with "#if" l) eqn:E2. { apply (IH _ (true :: d) _ defs B). cbn. now rewrite L. }
    destruct (starts_with "#endif" l) eqn:E3.
    { destruct n as [|n]; [discriminate|]. destruct d as [|b d]; [discriminate|]. cbn [app List.tl]. apply (IH n d _ defs B). now injection L. }
    destruct (forallb (fun b : bool => b) (d ++ st)).
    + destruct (starts_with "#define " l).
      * destruct (IH n d k (after 8 l :: defs) B L rest) as (d' & out & defs' & L' & I & P & Q). exists d', out, defs'.
        split; [exact L'|]. split; [intros x X; apply I; right; exact X|]. split; assumption.
      * destruct (IH n d k defs B L rest) as (d' & out & defs' & L' & I & P & Q). exists d', (l :: out), defs'.
        split; [exact L'|]. split; [exact I|]. rewrite P, Q. split; reflexivity.
    + apply (IH n d k defs B L rest).
Qed.

(** ** The claims *)
(** C98. A header which is read when none was before contributes all it has to say: its comments, and what is inside its guard. *)
Theorem c98_alone : forall o inclusions l p defs, generate_cpp_code o inclusions l = COk (Some p) -> ~ In "__AUTOCXXGEN_H__" defs -> balanced (inside p) ->
  preprocess defs [] (header_lines p) =
    (preamble ++ fst (preprocess ("__AUTOCXXGEN_H__" :: defs) [] (inside p)) ++ [""], snd (preprocess ("__AUTOCXXGEN_H__" :: defs) [] (inside p))).
Proof.
  intros o inclusions l p defs G N B. rewrite (header_shape _ _ _ _ G), pp_opened. apply smem_nIn in N. rewrite N. cbn [negb].
  destruct (pass_group [true] (inside p) 0 [] 0 ("__AUTOCXXGEN_H__" :: defs) B eq_refl ["#endif // __AUTOCXXGEN_H__"; ""]) as (d' & out & defs' & L & _ & P & Q).
  destruct d'; [|discriminate]. cbn [app] in P, Q. cbv zeta. rewrite Q, pp_closed. cbn [fst snd].
  assert (T : forall ls n d defs, open_groups n ls = Some 0 -> List.length d = n -> preprocess defs (d ++ [true]) ls = preprocess defs (d ++ []) ls).
  { clear. induction ls as [|l ls IH]; intros n d defs B L; [reflexivity|]. cbn [open_groups] in B. cbn [preprocess].
    destruct (starts_with "#ifndef " l) eqn:E1. { rewrite (ifndef_if _ E1) in B. apply (IH _ (_ :: d) defs B). cbn. now rewrite L. }
    destruct (starts_with "#if" l) eqn:E2. { apply (IH _ (true :: d) defs B). cbn. now rewrite L. }
    destruct (starts_with "#endif" l) eqn:E3.
    { destruct n as [|n]; [discriminate|]. destruct d as [|b d]; [discriminate|]. apply (IH n d defs B). now injection L. }
    rewrite !forallb_app. cbn [forallb]. rewrite andb_true_r. destruct (forallb (fun b : bool => b) d); cbn [andb]; [|apply (IH n d defs B L)].
    destruct (starts_with "#define " l); rewrite (IH n d _ B L); reflexivity. }
  pose proof (T (inside p) 0 [] ("__AUTOCXXGEN_H__" :: defs) B eq_refl) as T'. cbn [app] in T'. rewrite <- T', P. reflexivity.
Qed.

(** C98. A header which is read where the guard is defined contributes comments only, and defines nothing. *)
Theorem c98_guarded : forall o inclusions l p defs, generate_cpp_code o inclusions l = COk (Some p) -> In "__AUTOCXXGEN_H__" defs -> balanced (inside p) ->
  preprocess defs [] (header_lines p) = (preamble ++ [""], defs).
Proof.
  intros o inclusions l p defs G I B. rewrite (header_shape _ _ _ _ G), pp_opened. apply smem_In in I. rewrite I. cbn [negb].
  destruct (skip_group [] (inside p) 0 [] 0 defs B eq_refl ["#endif // __AUTOCXXGEN_H__"; ""]) as (d' & L & Q). destruct d'; [|discriminate].
  cbn [app] in Q. cbv zeta. rewrite Q, pp_closed. reflexivity.
Qed.

(** C98. So a C++ file may include a header as often as it likes, and whatever follows the first time is as if it were included once. *)
Theorem c98_twice : forall o inclusions l p defs, generate_cpp_code o inclusions l = COk (Some p) -> balanced (inside p) ->
  exists out defs', preprocess defs [] (header_lines p) = (out, defs') /\ preprocess defs' [] (header_lines p) = (preamble ++ [""], defs').
Proof.
  intros o inclusions l p defs G B. destruct (preprocess defs [] (header_lines p)) as [out defs'] eqn:E. exists out, defs'. split; [reflexivity|].
  apply (c98_guarded _ _ _ _ _ G); [|exact B]. destruct (in_dec string_dec "__AUTOCXXGEN_H__" defs) as [I|N].
  - rewrite (c98_guarded _ _ _ _ _ G I B) in E. injection E as _ <-. exact I.
  - rewrite (c98_alone _ _ _ _ _ G N B) in E. injection E as _ <-.
    destruct (pass_group [] (inside p) 0 [] 0 ("__AUTOCXXGEN_H__" :: defs) B eq_refl []) as (d' & out' & defs'' & _ & I & P & _). cbn [app] in P. rewrite P. apply I. left. reflexivity.
Qed.

(** C98. The guard is the same in the headers of all blocks, though their names differ: whichever of two is read second, all of it is lost. *)
Theorem c98_second_block : forall o1 inc1 l1 p1 o2 inc2 l2 p2, generate_cpp_code o1 inc1 l1 = COk (Some p1) -> generate_cpp_code o2 inc2 l2 = COk (Some p2) ->
  balanced (inside p1) -> balanced (inside p2) ->
  exists out defs, preprocess [] [] (header_lines p1) = (out, defs) /\ preprocess defs [] (header_lines p2) = (preamble ++ [""], defs).
Proof.
  intros o1 inc1 l1 p1 o2 inc2 l2 p2 G1 G2 B1 B2. destruct (c98_twice _ _ _ _ [] G1 B1) as (out & defs & E & E2). exists out, defs. split; [exact E|].
  apply (c98_guarded _ _ _ _ _ G2); [|exact B2]. rewrite (c98_alone _ _ _ _ [] G1 (fun F => F) B1) in E. injection E as _ <-.
  destruct (pass_group [] (inside p1) 0 [] 0 ["__AUTOCXXGEN_H__"] B1 eq_refl []) as (d' & out' & defs'' & _ & I & P & _). cbn [app] in P. rewrite P. apply I. left. reflexivity.
Qed.
(** ** When the groups in a header are closed *)
Lemma open_shift a : forall m k, open_groups m a = Some k -> forall n rest, open_groups (m + n) (a ++ rest) = open_groups (k + n) rest.
Proof.
  induction a as [|l a IH]; intros m k E n rest; cbn [open_groups app] in *; [injection E as ->; reflexivity|].
  destruct (starts_with "#if" l); [apply (IH (S m) k E)|]. destruct (starts_with "#endif" l); [|apply (IH m k E)]. destruct m as [|m]; [discriminate|]. apply (IH m k E).
Qed.
Lemma balanced_app a b : balanced a -> balanced b -> balanced (a ++ b).
Proof. unfold balanced. intros A B. pose proof (open_shift a 0 0 A 0 b) as X. cbn [Nat.add] in X. rewrite X. exact B. Qed.
Lemma balanced_join ts : (forall t, In t ts -> balanced (EngineModel.fields t)) -> balanced (EngineModel.fields (join nl ts)).
Proof.
  induction ts as [|t ts IH]; intros H; [reflexivity|]. destruct ts as [|u ts]; [apply H; left; reflexivity|].
  change (join nl (t :: u :: ts)) with (t +++ nl +++ join nl (u :: ts)). rewrite fields_split. apply balanced_app; [apply H; left; reflexivity|]. apply IH. intros x X. apply H. right. exact X.
Qed.
Lemma inside_is o inclusions hs ts ds p : fp_header p = header_text o inclusions hs ts ds ->
  inside p = [""] ++ EngineModel.fields (join nl (map (include_stmt o) hs)) ++ EngineModel.fields inclusions ++ EngineModel.fields (join nl ts) ++ [""] ++ EngineModel.fields (join nl ds).
Proof.
  intros E. unfold inside, header_lines. rewrite E. unfold header_text. generalize (join nl (map (include_stmt o) hs)) (join nl ts) (join nl ds). intros h t d.
  assert (Q : EngineModel.fields ("// Generated using autocxx - do not edit directly." +++ nl +++ "// @generated." +++ nl +++ "" +++ nl +++ "" +++ nl +++
      "#ifndef __AUTOCXXGEN_H__" +++ nl +++ "#define __AUTOCXXGEN_H__" +++ nl +++ "" +++ nl +++ h +++ nl +++ inclusions +++ nl +++ t +++ nl +++ "" +++ nl +++ d +++ nl +++
      "#endif // __AUTOCXXGEN_H__" +++ nl +++ "") =
    preamble ++ ["#ifndef __AUTOCXXGEN_H__"; "#define __AUTOCXXGEN_H__"] ++ ([""] ++ EngineModel.fields h ++ EngineModel.fields inclusions ++ EngineModel.fields t ++ [""] ++ EngineModel.fields d)
      ++ ["#endif // __AUTOCXXGEN_H__"; ""]).
  { rewrite (fields_split "// Generated using autocxx - do not edit directly."), (fields_split "// @generated.").
    do 2 rewrite (fields_split ""). rewrite (fields_split "#ifndef __AUTOCXXGEN_H__"), (fields_split "#define __AUTOCXXGEN_H__"), (fields_split ""), (fields_split h), (fields_split inclusions),
      (fields_split t), (fields_split ""), (fields_split d), (fields_split "#endif // __AUTOCXXGEN_H__").
    rewrite (plain_fields "// Generated using autocxx - do not edit directly."), (plain_fields "// @generated."), (plain_fields "#ifndef __AUTOCXXGEN_H__"),
      (plain_fields "#define __AUTOCXXGEN_H__"), (plain_fields "#endif // __AUTOCXXGEN_H__"), (plain_fields "") by (vm_compute; reflexivity).
    unfold preamble. cbn [app]. rewrite <- !app_assoc. cbn [app]. reflexivity. }
  match type of Q with EngineModel.fields ?x = _ => match goal with |- context [EngineModel.fields (?a +++ ?b)] => replace (a +++ b) with x by (rewrite !sapp_assoc; reflexivity) end end.
  rewrite Q. unfold preamble. cbn [app skipn]. rewrite app_comm_cons, removelast_two. reflexivity.
Qed.
Lemma plain_app a b : plain_line a -> plain_line b -> plain_line (a +++ b).
Proof.
  unfold plain_line. intros A B. induction a as [|c a IH]; [exact B|]. cbn [list_ascii_of_string forallb] in A. apply andb_prop in A as [A1 A2].
  change (forallb (fun c => negb (EngineModel.is_nl c)) (c :: list_ascii_of_string (a +++ b)) = true). cbn [forallb]. rewrite A1. apply IH. exact A2.
Qed.

(** C98. The groups in a header are closed, as the claims above ask, if they are in the inclusions of the user and in each type and declaration written for an item or a subclass (C86): those of the text
    about [new] and [delete] are, and the other includes have none. *)
Theorem c98_balanced : forall o inclusions l p, NoDup (map xname l) -> generate_cpp_code o inclusions l = COk (Some p) ->
  (forall path, co_path_to_cxx_h o = Some path -> plain_line path) -> balanced (EngineModel.fields inclusions) ->
  exists ts ds cs, Forall2 (type_text (names_of_apis l)) l ts /\ Forall2 (decl_text o (names_of_apis l)) l ds /\ Forall2 (class_written (names_of_apis l) l) (subclasses l) cs /\
    ((forall t, In t ((somes ts ++ flat_map (fun c => [holder_text c; class_text c]) cs) ++ (somes ds ++ map cast_text cs)) -> balanced (EngineModel.fields t)) -> balanced (inside p)).
Proof.
  intros o inclusions l p ND G PL BI. destruct (c86_header o inclusions l p ND G) as (hs & ts & ds & cs & RI & FT & FD & FC & E & _).
  exists ts, ds, cs. split; [exact FT|]. split; [exact FD|]. split; [exact FC|]. intros H. rewrite (inside_is _ _ _ _ _ _ E).
  apply balanced_app; [reflexivity|]. apply balanced_app.
  { apply balanced_join. intros t I. apply in_map_iff in I as (h & <- & I). apply (ri_no_others _ _ _ RI) in I.
    destruct I as [<-|[<-|[<-|[<-|[<-|[]]]]]]; try (vm_compute; reflexivity).
    assert (P : plain_line (include_stmt o HCxxH)).
    { unfold include_stmt, quoted. apply plain_app; [vm_compute; reflexivity|]. apply plain_app; [vm_compute; reflexivity|]. apply plain_app; [|vm_compute; reflexivity].
      apply plain_app; [|vm_compute; reflexivity]. destruct (co_path_to_cxx_h o) as [path|]; [apply PL; reflexivity|vm_compute; reflexivity]. }
    rewrite (plain_fields _ P). unfold balanced. cbn [open_groups].
    assert (S1 : starts_with "#if" (include_stmt o HCxxH) = false) by reflexivity. assert (S2 : starts_with "#endif" (include_stmt o HCxxH) = false) by reflexivity.
    rewrite S1, S2. reflexivity. }
  apply balanced_app; [exact BI|]. apply balanced_app; [apply balanced_join; intros t I; apply H; apply in_app_iff; left; exact I|].
  apply balanced_app; [reflexivity|]. apply balanced_join. intros t I. apply H. apply in_app_iff. right. exact I.
Qed.
Print Assumptions c98_balanced.
Print Assumptions c98_alone.
Print Assumptions c98_guarded.
Print Assumptions c98_twice.
Print Assumptions c98_second_block.

(** ** Cases *)
(** A second block of the same file, called [other], with the type [std::vector<int>]. *)
Definition other_opts : cpp_options := CO false None None "gen1.h" "autocxxgen_other.h" "autocxx_make_string_other".
Definition other : list xapi := [named0 "IntVec" (XConcrete "std::vector<int>" None)].
(** C98. A C++ file which includes the headers of two blocks of a program does not see what the second declares. *)
Theorem c98_two_blocks_refuted : exists o1 l1 p1 o2 l2 p2 d out defs, generate_cpp_code o1 "" l1 = COk (Some p1) /\ generate_cpp_code o2 "" l2 = COk (Some p2) /\
  fp_name p1 <> fp_name p2 /\ balanced (inside p1) /\ balanced (inside p2) /\
  In d (fst (preprocess [] [] (header_lines p2))) /\ preprocess [] [] (header_lines p1) = (out, defs) /\ ~ In d out /\ ~ In d (fst (preprocess defs [] (header_lines p2))).
Proof.
  assert (G1 : exists p, generate_cpp_code opts "" demo7_fl = COk (Some p)) by (eexists; vm_compute; reflexivity). destruct G1 as [p1 G1].
  assert (G2 : exists p, generate_cpp_code other_opts "" other = COk (Some p)) by (eexists; vm_compute; reflexivity). destruct G2 as [p2 G2].
  assert (B1 : balanced (inside p1)) by (vm_compute in G1; injection G1 as <-; vm_compute; reflexivity).
  assert (B2 : balanced (inside p2)) by (vm_compute in G2; injection G2 as <-; vm_compute; reflexivity).
  destruct (c98_second_block _ _ _ _ _ _ _ _ G1 G2 B1 B2) as (out & defs & E & E2).
  exists opts, demo7_fl, p1, other_opts, other, p2, "typedef std::vector<int> IntVec;", out, defs.
  split; [exact G1|]. split; [exact G2|].
  split. { vm_compute in G1; injection G1 as <-. vm_compute in G2; injection G2 as <-. discriminate. }
  split; [exact B1|]. split; [exact B2|]. split. { apply smem_In. clear - G2. vm_compute in G2. injection G2 as <-. vm_compute. reflexivity. }
  split; [exact E|]. split. { apply smem_nIn. clear - G1 E. vm_compute in G1. injection G1 as <-. vm_compute in E. injection E as <- _. vm_compute. reflexivity. }
  rewrite E2. intros I. apply smem_In in I. vm_compute in I. discriminate.
Qed.
Print Assumptions c98_two_blocks_refuted.

(** The header of the block of [c86_case], which holds the guarded text about [new] and [delete], and so a group within its own. *)
Example c98_case : exists p, generate_cpp_code opts "INC" demo7_fl = COk (Some p) /\ balanced (inside p) /\ In "#ifndef AUTOCXX_NEW_AND_DELETE_PRELUDE" (inside p) /\
  In "INC" (fst (preprocess [] [] (header_lines p))) /\ snd (preprocess [] [] (header_lines p)) = ["AUTOCXX_NEW_AND_DELETE_PRELUDE"; "__AUTOCXXGEN_H__"].
Proof.
  assert (G : exists p, generate_cpp_code opts "INC" demo7_fl = COk (Some p)) by (eexists; vm_compute; reflexivity). destruct G as [p G]. exists p. split; [exact G|].
  vm_compute in G. injection G as <-. split; [vm_compute; reflexivity|]. split; [apply smem_In; vm_compute; reflexivity|]. split; [apply smem_In; vm_compute; reflexivity|]. vm_compute. reflexivity.
Qed.
