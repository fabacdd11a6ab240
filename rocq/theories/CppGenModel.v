(** engine/src/conversion/codegen_cpp/mod.rs as a whole: the additional C++ header and source. The functions in it are
    CppWrapperModel's. Logging is left out. *)
From Verif Require Import Base QNamesModel KnownTypesModel ApiModel ApiVecModel TypesModel TypeConverterModel ByValueModel ConversionModel SynthNamesModel
  CppTypesModel CppWrapperModel FnAnalysisModel SubclassGenModel FrontModel FnDriverModel.

Definition nl : string := String (Ascii.ascii_of_nat 10) "".
Definition dq : string := String (Ascii.ascii_of_nat 34) "".
Definition quoted (s : string) : string := dq +++ s +++ dq.

(** engine/src/conversion/codegen_cpp/mod.rs:39-40. *)
Definition generated_file_header : string :=
  "// Generated using autocxx - do not edit directly." +++ nl +++ "// @generated." +++ nl +++ nl.

(** engine/src/conversion/codegen_cpp/new_and_delete_prelude.rs:16-41. *)
Definition new_and_delete_prelude : string := join nl
  ["#ifndef AUTOCXX_NEW_AND_DELETE_PRELUDE"; "#define AUTOCXX_NEW_AND_DELETE_PRELUDE"; "// Mechanics to call custom operator new and delete";
   "template <typename T>"; "auto delete_imp(T *ptr, int) -> decltype((void)T::operator delete(ptr)) {"; "  T::operator delete(ptr);"; "}";
   "template <typename T> void delete_imp(T *ptr, long) { ::operator delete(ptr); }";
   "template <typename T> void delete_appropriately(T *obj) {"; "  // 0 is a better match for the first 'delete_imp' so will match";
   "  // preferentially."; "  delete_imp(obj, 0);"; "}";
   "template <typename T>"; "auto new_imp(size_t count, int) -> decltype(T::operator new(count)) {"; "  return T::operator new(count);"; "}";
   "template <typename T> void *new_imp(size_t count, long) {"; "  return ::operator new(count);"; "}";
   "template <typename T> T *new_appropriately() {"; "  // 0 is a better match for the first 'delete_imp' so will match";
   "  // preferentially."; "  return static_cast<T *>(new_imp<T>(sizeof(T), 0));"; "}"; "#endif // AUTOCXX_NEW_AND_DELETE_PRELUDE"; ""].

(** engine/src/conversion/codegen_cpp/mod.rs:42-48 [Header]. *)
Inductive header := HSystem (name : string) | HCxxH | HCxxgenH | HNewDelete.
Definition header_eqb (a b : header) : bool :=
  match a, b with
  | HSystem x, HSystem y => String.eqb x y
  | HCxxH, HCxxH | HCxxgenH, HCxxgenH | HNewDelete, HNewDelete => true
  | _, _ => false
  end.

(** engine/src/lib.rs:680-703 [CppCodegenOptions]; the names the namers give next, and the results of [get_mod_name] and
    [get_makestring_name] (parser/src/config.rs). *)
Record cpp_options := CO {
  co_suppress_system : bool; co_path_to_cxx_h : option string; co_path_to_cxxgen_h : option string;
  co_cxxgen_name : string; co_header_name : string; co_make_string : string }.

(** engine/src/conversion/codegen_cpp/mod.rs:87-93 [ExtraCpp]. *)
Record extra := Extra {
  ex_type : option string; ex_decl : option string; ex_def : option string; ex_headers : list header; ex_cpp_headers : list header }.

(** engine/src/lib.rs:77-85 [CppFilePair]. *)
Record file_pair := FP { fp_header : string; fp_impl : option string; fp_name : string }.

(** engine/src/conversion/analysis/fun/mod.rs:2254-2280 [needs_cpp_codegen]. *)
Definition needs_cpp_codegen (x : xapi) : bool :=
  match x_kind x with
  | XFunction _ _ (Some fa) =>
      (match fa_wrapper fa with Some _ => true | None => false end) && (match fa_ignore fa with None => true | Some _ => false end) && fa_external fa
  | XStringConstructor | XConcrete _ _ | XCType _ | XRustSubclassFn _ _ | XSubclass _ => true
  | XStruct _ (Some pa) => match pa_kind pa with Pod => true | _ => false end
  | _ => false
  end.


(** engine/src/conversion/api.rs:255-265 [qualified_cpp_name]. *)
Definition qualified_cpp_name (n : api_name) : string :=
  join "::" (qn_ns (an_name n) ++ [match an_cpp n with Some c => c | None => qn_item (an_name n) end]).

Section Gen.
Variable o : cpp_options.

(** engine/src/conversion/codegen_cpp/mod.rs:50-76 [include_stmt], [is_system]. *)
Definition include_stmt (h : header) : string :=
  match h with
  | HSystem n => "#include <" +++ n +++ ">"
  | HCxxH => "#include " +++ quoted ((match co_path_to_cxx_h o with Some p => p | None => "" end) +++ "cxx.h")
  | HCxxgenH => "#include " +++ quoted ((match co_path_to_cxxgen_h o with Some p => p | None => "" end) +++ co_cxxgen_name o)
  | HNewDelete => new_and_delete_prelude
  end.
Definition is_system (h : header) : bool := match h with HSystem _ | HCxxH => true | _ => false end.

(** engine/src/conversion/codegen_cpp/mod.rs:293-307 [generate_pod_assertion]. *)
Definition generate_pod_assertion (name : string) : extra :=
  Extra None (Some ("static_assert(::rust::IsRelocatable<" +++ name +++ ">::value, " +++
    quoted ("type " +++ name +++ " should be trivially move constructible and trivially destructible to be used with generate_pod! in autocxx") +++ ");"))
    None [HCxxH] [].
(** engine/src/conversion/codegen_cpp/mod.rs:309-321 [generate_string_constructor]. *)
Definition generate_string_constructor : extra :=
  Extra None (Some ("inline std::unique_ptr<std::string> " +++ co_make_string o +++
    "(::rust::Str str) { return std::make_unique<std::string>(std::string(str)); }"))
    None [HSystem "memory"; HSystem "string"; HCxxH] [].
(** engine/src/conversion/codegen_cpp/mod.rs:646-652 [generate_typedef]. *)
Definition generate_typedef (tn : qname) (definition : string) : extra :=
  Extra (Some ("typedef " +++ definition +++ " " +++ qn_item tn +++ ";")) None None [] [].
(** engine/src/conversion/codegen_cpp/mod.rs:641-644 [generate_ctype_typedef]. *)
Definition generate_ctype_typedef (tn : qname) : extra := generate_typedef tn (to_cpp_name tn).
(** engine/src/conversion/codegen_cpp/mod.rs:614-635, inside generate_cpp_function_inner: what is needed for a function. *)
Definition fn_extra (d : cpp_def) : extra :=
  Extra None (Some (fst (show_def d))) (snd (show_def d))
    (HSystem "memory" :: if d_allocators d then [HSystem "stddef.h"; HNewDelete] else []) [].
(** [declaration.take()]. *)
Definition undeclared (e : extra) : extra := Extra (ex_type e) None (ex_def e) (ex_headers e) (ex_cpp_headers e).

Variable m : name_map.

(** engine/src/conversion/codegen_cpp/mod.rs:668-703, inside generate_subclass: a method of a subclass: the declarations which go into the class
    and what is put elsewhere. *)
Definition subclass_method (sup : qname) (f : cpp_function) (pure : bool) : conv (list string * list extra) :=
  cbind (override_of m f) (fun d =>
  if pure then COk ([fst (show_def d)], [undeclared (fn_extra d)])
  else cbind (super_call_of m sup (qn_item (super_fn_name (qn_ns sup) (cf_wrapper_name f))) f) (fun s =>
    COk ([fst (show_def d); fst (show_def s)], [undeclared (fn_extra d); undeclared (fn_extra s)]))).
(** engine/src/conversion/codegen_cpp/mod.rs:705-718, inside generate_subclass: the conversions to the superclass. *)
Definition casts_to_super (sup : qname) : list string :=
  ["const " +++ qn_item sup +++ "& As_" +++ qn_item sup +++ "() const { return *this; }"; qn_item sup +++ "& As_" +++ qn_item sup +++ "_mut() { return *this; }"].
Definition unique_ptr_cast (sub sup : qname) : extra :=
  Extra None (Some ("inline std::unique_ptr<" +++ to_cpp_name sup +++ "> " +++ qn_display (subclass_cpp sub) +++ "_As_" +++ qn_item sup +++ "_UniquePtr(std::unique_ptr<" +++
    qn_display (subclass_cpp sub) +++ "> u) { return std::unique_ptr<" +++ to_cpp_name sup +++ ">(u.release()); }")) None [] [].
(** engine/src/conversion/codegen_cpp/mod.rs:733-751, inside generate_subclass: the class. *)
Definition class_extra (sub sup : qname) (ctors methods : list string) : extra :=
  let cpp := qn_display (subclass_cpp sub) in
  Extra (Some ("class " +++ cpp +++ " : public " +++ to_cpp_name sup +++ nl +++ "{" +++ nl +++ "public:" +++ nl +++ join nl ctors +++ nl +++ join nl methods +++ nl +++
      "void " +++ sc_cpp_remove_ownership sub +++ "() const;" +++ nl +++ "private:rust::Box<" +++ sc_holder sub +++ "> obs;" +++ nl +++
      "void really_remove_ownership();" +++ nl +++ nl +++ "};"))
    None
    (Some ("void " +++ cpp +++ "::" +++ sc_cpp_remove_ownership sub +++ "() const {" +++ nl +++ "const_cast<" +++ cpp +++ "*>(this)->really_remove_ownership();" +++ nl +++ "}" +++ nl +++
      "void " +++ cpp +++ "::really_remove_ownership() {" +++ nl +++ "auto new_obs = " +++ sc_remove_ownership sub +++ "(std::move(obs));" +++ nl +++
      "obs = std::move(new_obs);" +++ nl +++ "}" +++ nl))
    [] [HCxxgenH].
(** engine/src/conversion/codegen_cpp/mod.rs:655-755 [generate_subclass]. *)
Definition generate_subclass_cpp (sup sub : qname) (constructors : list cpp_function) (methods : list (cpp_function * bool)) : conv (list extra) :=
  cbind (cmap (fun p => subclass_method sup (fst p) (snd p)) methods) (fun ms =>
  cbind (cmap (constructor_of m) constructors) (fun cs =>
  COk ([Extra (Some ("struct " +++ sc_holder sub +++ ";")) None None [] []] ++ concat (map snd ms) ++ [unique_ptr_cast sub sup] ++
    map (fun d => undeclared (fn_extra d)) cs ++
    [class_extra sub sup (map (fun d => fst (show_def d)) cs) (concat (map fst ms) ++ casts_to_super sup)]))).

(** [IndexMap::entry(..).or_default().push(..)] and [remove(..).unwrap_or_default()]. *)
Definition entry_push {A} (k : qname) (a : A) (t : list (qname * list A)) : list (qname * list A) :=
  qset k (match qget k t with Some l => l ++ [a] | None => [a] end) t.
Definition take_entry {A} (k : qname) (t : list (qname * list A)) : list A * list (qname * list A) :=
  (match qget k t with Some l => l | None => [] end, qdel k t).

(** engine/src/conversion/codegen_cpp/mod.rs:142-144: what is known during the first loop. *)
Record need_state := NS {
  ns_extra : list extra; ns_ctors : list (qname * list cpp_function); ns_methods : list (qname * list (cpp_function * bool));
  ns_deferred : list (qname * qname) }.
Definition push_extra (e : extra) (s : need_state) : need_state := NS (ns_extra s ++ [e]) (ns_ctors s) (ns_methods s) (ns_deferred s).
(** engine/src/conversion/codegen_cpp/mod.rs:145-211, inside add_needs: one API. [CPanic] for an API which does not need any C++. *)
Definition add_need (s : need_state) (x : xapi) : conv need_state :=
  match x_kind x with
  | XStringConstructor => COk (push_extra generate_string_constructor s)
  | XFunction _ pv (Some fa) =>
      match fa_wrapper fa, fa_ignore fa, fa_external fa with
      | Some w, None, true =>
          let s := match pv with PvSubclassCtor sub _ c => NS (ns_extra s) (entry_push sub c (ns_ctors s)) (ns_methods s) (ns_deferred s) | PvOther => s end in
          cbind (generate_cpp_function m w) (fun d => COk (push_extra (fn_extra d) s))
      | _, _, _ => CPanic
      end
  | XConcrete cpp rs =>
      cbind (match rs with Some t => type_to_cpp m t | None => COk cpp end) (fun def => COk (push_extra (generate_typedef (xname x) def) s))
  | XCType q => COk (push_extra (generate_ctype_typedef q) s)
  | XSubclass sup => COk (NS (ns_extra s) (ns_ctors s) (ns_methods s) (ns_deferred s ++ [(xname x, sup)]))
  | XRustSubclassFn sub d =>
      COk (NS (ns_extra s) (ns_ctors s) (entry_push sub (sf_cpp d, sf_pure d) (ns_methods s)) (ns_deferred s))
  | XStruct _ (Some pa) => match pa_kind pa with Pod => COk (push_extra (generate_pod_assertion (qualified_cpp_name (x_info x))) s) | _ => CPanic end
  | _ => CPanic
  end.
Fixpoint add_each (s : need_state) (l : list xapi) : conv need_state :=
  match l with
  | [] => COk s
  | x :: r => cbind (add_need s x) (fun s => add_each s r)
  end.
(** engine/src/conversion/codegen_cpp/mod.rs:213-223, inside add_needs: the subclasses. *)
Fixpoint add_subclasses (acc : list extra) (ct : list (qname * list cpp_function)) (mt : list (qname * list (cpp_function * bool)))
    (l : list (qname * qname)) : conv (list extra) :=
  match l with
  | [] => COk acc
  | (sub, sup) :: r =>
      let '(cs, ct) := take_entry sub ct in
      let '(ms, mt) := take_entry sub mt in
      cbind (generate_subclass_cpp sup sub cs ms) (fun e => add_subclasses (acc ++ e) ct mt r)
  end.
(** engine/src/conversion/codegen_cpp/mod.rs:138-225 [add_needs]. *)
Definition add_needs (l : list xapi) : conv (list extra) :=
  cbind (add_each (NS [] [] [] []) l) (fun s => add_subclasses (ns_extra s) (ns_ctors s) (ns_methods s) (ns_deferred s)).
End Gen.

(** [IndexSet::insert]. *)
Definition hinsert (h : header) (l : list header) : list header := if existsb (header_eqb h) l then l else l ++ [h].
(** engine/src/conversion/codegen_cpp/mod.rs:264-279 [collect_headers]: the lines. *)
Definition collect_headers (o : cpp_options) (f : extra -> list header) (ex : list extra) : list string :=
  map (include_stmt o)
    (fold_left (fun s h => hinsert h s) (filter (fun h => negb (co_suppress_system o) || negb (is_system h)) (flat_map f ex)) []).
(** engine/src/conversion/codegen_cpp/mod.rs:281-292 [concat_additional_items]. *)
Definition concat_items (f : extra -> option string) (ex : list extra) : string := join nl (somes (map f ex)) +++ nl.

(** engine/src/conversion/codegen_cpp/mod.rs:227-262 [generate]. *)
Definition generate_files (o : cpp_options) (inclusions : string) (ex : list extra) : option file_pair :=
  match ex with
  | [] => None
  | _ =>
      let headers := join nl (collect_headers o ex_headers ex) in
      let cpp_headers := join nl (collect_headers o ex_cpp_headers ex) in
      Some (FP
        (generated_file_header +++ nl +++ "#ifndef __AUTOCXXGEN_H__" +++ nl +++ "#define __AUTOCXXGEN_H__" +++ nl +++ nl +++ headers +++ nl +++ inclusions +++ nl +++
           concat_items ex_type ex +++ nl +++ concat_items ex_decl ex +++ "#endif // __AUTOCXXGEN_H__" +++ nl)
        (match somes (map ex_def ex) with
         | [] => None
         | _ => Some (generated_file_header +++ nl +++ "#include " +++ quoted (co_header_name o) +++ nl +++ cpp_headers +++ nl +++ concat_items ex_def ex)
         end)
        (co_header_name o))
  end.

(** engine/src/conversion/codegen_cpp/type_to_cpp.rs:30-40 [new_from_apis]. *)
Definition names_of_apis (l : list xapi) : name_map := name_map_from (map (fun x => (xname x, an_cpp (x_info x))) l).
(** engine/src/conversion/codegen_cpp/mod.rs:115-135 [generate_cpp_code]. *)
Definition generate_cpp_code (o : cpp_options) (inclusions : string) (l : list xapi) : conv (option file_pair) :=
  cbind (add_needs o (names_of_apis l) (filter needs_cpp_codegen l)) (fun ex => COk (generate_files o inclusions ex)).

(** engine/src/conversion/codegen_rs/mod.rs:284-298 [build_include_foreign_items] as [rs_codegen] (engine/src/conversion/codegen_rs/mod.rs:151-253)
    calls it: the files the bridge includes. [CPanic] is the [unwrap] of a missing header name. *)
Definition bridge_includes (include_list : list string) (header_name : option string) (l : list xapi) : conv (list string) :=
  if existsb needs_cpp_codegen l then match header_name with Some n => COk (include_list ++ [n]) | None => CPanic end else COk include_list.
(** engine/src/conversion/mod.rs:184-203, inside convert: the C++ code and what the Rust code includes of it. *)
Definition codegen (o : cpp_options) (inclusions : string) (include_list : list string) (l : list xapi) : conv (option file_pair * list string) :=
  cbind (generate_cpp_code o inclusions l) (fun p => cbind (bridge_includes include_list (option_map fp_name p) l) (fun i => COk (p, i))).

(** The phases after function analysis are modelled on a part of each API, which they may change; this puts back the rest, which they
    leave alone. [r] is the result of function analysis. *)
Definition restore (r : list xapi) (a : api) : xapi :=
  XA (api_info a)
    match api_kind_of a, option_map x_kind (find (fun x => qn_eqb (xname x) (aname a)) r) with
    | KIgnored e c, _ => XIgnored e c
    | KCType q, _ => XCType q
    | KStruct s, Some (XStruct sd (Some pa)) =>
        XStruct sd (Some (PA (st_kind s) (pa_bases pa) (pa_castable pa) (pa_field_deps pa) (pa_field_def_deps pa) (pa_fields pa) (pa_generics pa) (pa_anon pa)))
    | _, Some k => k
    | _, None => XConst
    end.
(** engine/src/conversion/mod.rs:131-203, inside convert: from what was parsed to the generated C++ code. [None] as for [kept]. *)
Definition final_apis (d : dcfg) (l : list xapi) : option (list xapi) :=
  match analyzed d l, kept d l with
  | OOk (r, _), Some v => Some (map (restore r) (av_apis v))
  | _, _ => None
  end.
