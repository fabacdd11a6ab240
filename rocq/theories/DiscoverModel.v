(** Model of the search through the user's Rust code for uses of C++ names and
    for items which C++ code is to use. *)
From Verif Require Import Base ConfigModel.
Local Open Scope list_scope.

(** ** Rust code *)

(** The types which can be those of a [self] parameter. *)
Inductive self_type := SelfT | RefT (mt : bool) (t : self_type) | NameT (n : string) (args : list self_type).

(** The first parameter of a method: none, a receiver, or an ordinary one. *)
Inductive first_param := NoParam | Receiver (t : self_type) | Typed.

(** Kinds of nodes of a [syn] tree. Simplified: the trees of [syn] are
    represented as trees of nodes with a kind and children in roles, which is
    all that matters to the search; statements which are just an expression or
    an item are that expression or item; a path holds the names of its segments.
    An [impl] block holds the name of its type if that is a single name and
    there is no trait; functions, methods, structs and enums hold whether they have the
    attribute which exports them to C++. *)
Inductive kind :=
(* items *)
| KFn (exported : bool) (s : signature) | KImpl (ty : option string) | KImplFn (exported : bool) (s : signature) (first : first_param)
| KImplOther | KMod (id : string) | KTrait | KTraitFn | KTraitOther
| KStruct (exported : bool) (id : string) | KEnum (exported : bool) (id : string) | KOtherItem
(* statements *)
| KLocal | KStmtMacro
(* expressions *)
| KExprPath | KExprMacro | KInfer | KArray | KAssign | KBinary | KAsync | KAwait | KField | KBlock | KConst | KBreak | KCast
| KGroup | KParen | KReference | KTry | KUnary | KCall | KClosure | KContinue | KLit | KVerbatim | KForLoop | KIf | KIndex
| KLet | KLoop | KMatch | KArm | KMethodCall | KRange | KRepeat | KReturn | KStructExpr | KTryBlock | KTuple | KUnsafe
| KWhile | KYield
(* types *)
| KTyArray | KTyGroup | KTyParen | KTyPtr | KTyReference | KTySlice | KTyBareFn | KTyImplTrait | KTyInfer | KTyMacro
| KTyNever | KTyPath | KTyTraitObject | KTyTuple
(* patterns *)
| KPatConst | KPatReference | KPatIdent | KPatLit | KPatMacro | KPatRange | KPatRest | KPatParen | KPatOr | KPatPath
| KPatSlice | KPatTuple | KPatStruct | KPatTupleStruct | KPatType | KPatWild
(* paths and generics *)
| KPath (segs : list string) | KAngle | KParenthesized | KArgLifetime | KArgType | KArgAssocType | KArgConstraint | KArgConst
| KArgAssocConst | KBoundTrait | KBoundLifetime.

(** Roles of children, by the names of the fields in [syn]; [RArg] stands for
    [args], [inputs] and [elems], [RBody] also for blocks. *)
Inductive role :=
| RBody | RInit | RDiverge | RPat | RType | RExpr | RLeft | RRight | RLen | RQself | RPath | RArguments | RArg | ROutput | RGuard | RArm
| RField | RRest | RBound | RTurbofish | RFunc | RIndex | RCond | RThen | RElse | RStart | REnd | RSubpat | RItem | RTrait
| RSelfTy | RGenerics | RFieldType.

Inductive node := Node (k : kind) (children : list (role * node)).

(** ** The search *)

(** engine/src/ast_discoverer.rs:28-32 [Discoveries]; the set is a list without duplicates. *)
Record discoveries := Disc { d_cpp : list string; d_funs : list rust_fun; d_types : list rust_path }.
Definition no_discoveries : discoveries := Disc [] [] [].
(** engine/src/ast_discoverer.rs:35-42 [DiscoveryErr]; [DPanic] is the failed assertion of engine/src/ast_discoverer.rs:331-361 [search_impl_item]. *)
Inductive disc_err := UnclearReceiver | NoParameterOnMethod | FunWithinMod | DPanic.

(** [IndexSet::insert]. *)
Definition set_insert (s : string) (l : list string) : list string := if smem s l then l else l ++ [s].
(** engine/src/ast_discoverer.rs:65-69 [extend] *)
Definition extend (d o : discoveries) : discoveries :=
  Disc (fold_left (fun l s => set_insert s l) (d_cpp o) (d_cpp d)) (d_funs d ++ d_funs o) (d_types d ++ d_types o).
(** engine/src/ast_discoverer.rs:57-59 [found_allowlist] *)
Definition found_allowlist (d : discoveries) : bool := match d_cpp d with [] => false | _ => true end.
(** engine/src/ast_discoverer.rs:61-63 [found_rust] *)
Definition found_rust (d : discoveries) : bool :=
  match d_funs d, d_types d with [], [] => false | _, _ => true end.

(** engine/src/ast_discoverer.rs:78-83 [deeper_path] *)
Definition deeper_path (mp : option rust_path) (id : string) : rust_path :=
  match mp with None => [id] | Some p => p ++ [id] end.

(** Which children of a node the search looks at. The arms for items are those of
    engine/src/ast_discoverer.rs:85-162 [search_item], engine/src/ast_discoverer.rs:179-186 [search_trait_item] and engine/src/ast_discoverer.rs:331-361 [search_impl_item]; for statements
    engine/src/ast_discoverer.rs:198-210 [search_stmt]; for expressions engine/src/ast_discoverer.rs:212-312 [search_expr]; for types engine/src/ast_discoverer.rs:410-442 [search_type] and
    engine/src/ast_discoverer.rs:444-454 [search_type_param_bounds]; for patterns engine/src/ast_discoverer.rs:363-408 [search_pat]; for paths engine/src/ast_discoverer.rs:164-177 [search_path] and
    engine/src/ast_discoverer.rs:464-497 [search_path_arguments]. *)
Definition visits (k : kind) (r : role) : bool :=
  match k, r with
  | KFn _ _, (RBody | ROutput | RPat | RType) => true
  | KImpl _, RItem => true
  | KImplFn _ _ _, RBody => true
  | KMod _, RItem => true
  | KTrait, RItem => true
  | KTraitFn, RBody => true
  | KLocal, (RInit | RPat) => true
  | KExprPath, RPath => true
  | KArray, RArg => true
  | (KAssign | KBinary), (RLeft | RRight) => true
  | (KAsync | KBlock | KConst | KLoop | KTryBlock | KUnsafe), RBody => true
  | (KAwait | KField | KBreak | KCast | KGroup | KParen | KReference | KTry | KUnary | KReturn | KYield), RExpr => true
  | KCall, (RFunc | RArg) => true
  | KClosure, RBody => true
  | KForLoop, (RExpr | RBody) => true
  | KIf, (RCond | RThen | RElse) => true
  | KIndex, (RExpr | RIndex) => true
  | KLet, (RExpr | RPat) => true
  | KMatch, (RExpr | RArm) => true
  | KArm, (RBody | RGuard) => true
  | KMethodCall, (RExpr | RArg) => true
  | KRange, (RStart | REnd) => true
  | KRepeat, (RExpr | RLen) => true
  | KStructExpr, (RField | RRest) => true
  | KTuple, RArg => true
  | KWhile, (RCond | RBody) => true
  | (KTyArray | KTyGroup | KTyParen | KTyPtr | KTyReference | KTySlice), RType => true
  | KTyBareFn, (RArg | ROutput) => true
  | (KTyImplTrait | KTyTraitObject), RBound => true
  | KTyPath, RPath => true
  | KTyTuple, RArg => true
  | KPatConst, RBody => true
  | (KPatReference | KPatParen), RPat => true
  | (KPatOr | KPatSlice | KPatTuple), RArg => true
  | KPatPath, RPath => true
  | KPatStruct, (RPath | RField) => true
  | KPatTupleStruct, (RPath | RArg) => true
  | KPatType, (RPat | RType) => true
  | KPath _, RArguments => true
  | KAngle, RArg => true
  | KParenthesized, (ROutput | RArg) => true
  | (KArgType | KArgAssocType), RType => true
  | KArgConstraint, RBound => true
  | (KArgConst | KArgAssocConst), RExpr => true
  | KBoundTrait, RPath => true
  | _, _ => false
  end.

(** engine/src/ast_discoverer.rs:520-526 [visit_type_path_mut] within [visit_type_mut]: names are not entered. *)
Fixpoint substitute_self (cls : string) (t : self_type) : self_type :=
  match t with
  | SelfT => NameT cls []
  | RefT m t' => RefT m (substitute_self cls t')
  | NameT n a => NameT n a
  end.

Section Print.
(** The text of a signature whose [self] parameter has been given a type. *)
Variable with_self : self_type -> signature -> signature.

(** engine/src/ast_discoverer.rs:531-553 [add_receiver] *)
Definition add_receiver (s : signature) (first : first_param) (cls : string) : res signature disc_err :=
  match first with
  | NoParam => Err NoParameterOnMethod
  | Typed => Ok s
  | Receiver t => Ok (with_self (substitute_self cls t) s)
  end.

(** What a node itself adds, after its children for functions and before them for
    all others (they add different things or have no such children):
    engine/src/ast_discoverer.rs:85-162 [search_item], engine/src/ast_discoverer.rs:164-177 [search_path], engine/src/ast_discoverer.rs:331-361 [search_impl_item]. *)
Definition own (mp : option rust_path) (recv : option rust_path) (k : kind) (d : discoveries) : res discoveries disc_err :=
  match k with
  | KFn true s => Ok (Disc (d_cpp d) (d_funs d ++ [RustFun (deeper_path mp (sig_ident s)) s false]) (d_types d))
  | KImplFn true s first =>
      match mp with
      | Some _ => Err FunWithinMod
      | None =>
          match recv with
          | None => Err UnclearReceiver
          | Some r =>
              match add_receiver s first (last r "") with
              | Err e => Err e
              | Ok s' =>
                  if Nat.eqb (List.length r) 1 then
                    Ok (Disc (d_cpp d) (d_funs d ++ [RustFun (deeper_path mp (sig_ident s)) s' true]) (d_types d ++ [r]))
                  else Err DPanic
              end
          end
      end
  | KStruct true id | KEnum true id => Ok (Disc (d_cpp d) (d_funs d) (d_types d ++ [deeper_path mp id]))
  | KPath (f :: rest) =>
      if String.eqb f "ffi" then Ok (Disc (set_insert (join "::" rest) (d_cpp d)) (d_funs d) (d_types d)) else Ok d
  | _ => Ok d
  end.

(** The module and the class within which the children are. *)
Definition inner_mod (mp : option rust_path) (k : kind) : option rust_path :=
  match k with KMod id => Some (deeper_path mp id) | _ => mp end.
Definition inner_recv (mp : option rust_path) (k : kind) : option rust_path :=
  match k with KImpl (Some id) => Some (deeper_path mp id) | _ => None end.

(** engine/src/ast_discoverer.rs:45-55 [search_item], with all the functions it calls. *)
Fixpoint search (mp recv : option rust_path) (n : node) (d : discoveries) : res discoveries disc_err :=
  match n with
  | Node k ch =>
      let kids := fix kids (l : list (role * node)) (d : discoveries) :=
        match l with
        | [] => Ok d
        | (r, c) :: l' =>
            if visits k r then
              match search (inner_mod mp k) (inner_recv mp k) c d with
              | Ok d' => kids l' d'
              | Err e => Err e
              end
            else kids l' d
        end in
      match k with
      | KFn _ _ => match kids ch d with Ok d' => own mp recv k d' | Err e => Err e end
      | _ => match own mp recv k d with Ok d' => kids ch d' | Err e => Err e end
      end
  end.
End Print.
