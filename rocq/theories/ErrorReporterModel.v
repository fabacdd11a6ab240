(** engine/src/conversion/error_reporter.rs: turning per-item failures into
    ignored items. *)
From Verif Require Import Base ApiModel ApiVecModel.

(** engine/src/conversion/convert_error.rs:281-284 [ConvertErrorWithContext]. *)
Definition err_with_ctx : Type := cpp_error * option err_ctx.

(** engine/src/conversion/error_reporter.rs:38-41: the name under which an error is
    reported ([get_type] then the identifier of the item, or of the method's class). *)
Definition ctx_id (c : err_ctx) : string :=
  match c with
  | CtxItem id | CtxSanitizedItem id => id
  | CtxMethod self_ty _ => self_ty
  end.

(** engine/src/conversion/error_reporter.rs:192-202 [api_or_error]. *)
Definition api_or_error (name : api_name) (r : res (list api) err_with_ctx) : list api :=
  match r with
  | Ok l => l
  | Err (e, c) => [API name (KIgnored e c)]
  end.

(** The [flat_map] of engine/src/conversion/error_reporter.rs:84 and 215, with the state [S] captured by the
    [FnMut] closures threaded through. *)
Fixpoint flat_map_state {S A} (f : S -> A -> S * list api) (s : S) (l : list A) : S * list api :=
  match l with
  | [] => (s, [])
  | a :: rest =>
      let '(s1, out) := f s a in
      let '(s2, outs) := flat_map_state f s1 rest in
      (s2, out ++ outs)
  end.

Section Reporter.
Variable builtin : string -> bool.

(** engine/src/conversion/error_reporter.rs:25-52 [report_any_error]: [r] is the result of
    running the closure. The message printed when there is no context is not modelled. *)
Definition report_any_error {T} (ns : list string) (apis : apivec) (r : res T err_with_ctx)
  : apivec * option T :=
  match r with
  | Ok t => (apis, Some t)
  | Err (_, None) => (apis, None)
  | Err (e, Some c) =>
      (av_push builtin apis (API (AN (QN ns (ctx_id c)) None) (KIgnored e (Some c))), None)
  end.

(** engine/src/conversion/error_reporter.rs:208-223 [convert_item_apis], for one item. *)
Definition convert_item {S} (f : S -> api -> S * res (list api) cpp_error) (s : S) (a : api) : S * list api :=
  let '(s1, r) := f s a in
  (s1, api_or_error (api_info a)
         match r with
         | Ok l => Ok l
         | Err e => Err (e, Some (ctx_for_item builtin (qn_item (aname a))))
         end).
(** engine/src/conversion/error_reporter.rs:208-223 [convert_item_apis]. *)
Definition convert_item_apis {S} (f : S -> api -> S * res (list api) cpp_error) (s : S)
    (inp : list api) (out : apivec) : S * apivec :=
  let '(s1, l) := flat_map_state (convert_item f) s inp in (s1, av_extend builtin out l).

(** engine/src/conversion/error_reporter.rs:58-190 [convert_apis], for one item: functions,
    structs, enums and typedefs are mapped, everything else is kept. The four
    closures may share state; they receive the whole item. *)
Definition convert_api {S} (func strukt enm typedef : S -> api -> S * res (list api) err_with_ctx)
    (s : S) (a : api) : S * list api :=
  let '(s1, r) :=
    match api_kind_of a with
    | KFunction _ => func s a
    | KStruct _ => strukt s a
    | KEnum => enm s a
    | KTypedef _ _ => typedef s a
    | _ => (s, Ok [a])
    end in
  (s1, api_or_error (api_info a) r).
Definition convert_apis {S} (func strukt enm typedef : S -> api -> S * res (list api) err_with_ctx)
    (s : S) (inp : list api) (out : apivec) : S * apivec :=
  let '(s1, l) := flat_map_state (convert_api func strukt enm typedef) s inp in
  (s1, av_extend builtin out l).
End Reporter.
