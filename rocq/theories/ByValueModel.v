(** engine/src/conversion/analysis/pod: which types may be held by value in Rust. *)
From Verif Require Import Base QNamesModel KnownTypesModel ApiModel TypesModel ConcreteNamesModel TypeConverterModel.

(** engine/src/conversion/analysis/pod/byvalue_checker.rs:23-28 [PodState], without the texts. *)
Inductive pod_state := PsUnsafe | PsSafe | PsPod | PsAlias (target : qname).
(** engine/src/conversion/analysis/pod/byvalue_checker.rs:31-34 [StructDetails] and 54-57
    [ByValueChecker]: state and [dependent_structs] of each name. *)
Definition pod_db := list (qname * (pod_state * list qname)).

(** engine/src/conversion/analysis/pod/byvalue_checker.rs:60-71 [ByValueChecker::new]. *)
Definition base_db : pod_db :=
  fold_left (fun m p => qset (fst p) (match snd p with Some true => PsPod | _ => PsUnsafe end, []) m) pod_safe_types [].

(** The APIs as this analysis sees them: typedef (with its target), enum or extern POD type, struct (with
    its fields: name if any, type), anything else. *)
Inductive pod_api :=
| PaTypedef (n : qname) (target : ty)
| PaPod (n : qname)
| PaStruct (n : qname) (fields : list (option string * ty))
| PaOther (n : qname).

Inductive pod_out (A : Type) := PoOk (a : A) | PoErr | PoPanic | PoFuel.
Arguments PoOk {A} a. Arguments PoErr {A}. Arguments PoPanic {A}. Arguments PoFuel {A}.
Definition pobind {A B} (x : pod_out A) (f : A -> pod_out B) : pod_out B :=
  match x with PoOk a => f a | PoErr => PoErr | PoPanic => PoPanic | PoFuel => PoFuel end.

(** engine/src/conversion/analysis/pod/byvalue_checker.rs:93-133: what a typedef is an alias of, if it is
    an alias of a built-in type. The name is that of the substitute's path. *)
Definition typedef_alias (target : ty) : pod_out (option qname) :=
  match target with
  | TPath lead id _ =>
      match path_name lead id with
      | None => PoPanic
      | Some tn =>
          match kt_get tn with
          | None => PoOk None
          | Some td => match td_path td [] with
                       | TPath l i _ => match path_name l i with Some q => PoOk (Some q) | None => PoPanic end
                       | _ => PoPanic
                       end
          end
      end
  | _ => PoOk None
  end.

(** engine/src/conversion/analysis/pod/byvalue_checker.rs:91-133, the first loop of [new_from_apis]. *)
Fixpoint ingest_types (db : pod_db) (apis : list pod_api) : pod_out pod_db :=
  match apis with
  | [] => PoOk db
  | PaTypedef n t :: r =>
      pobind (typedef_alias t) (fun o =>
        ingest_types (qset n (match o with Some q => PsAlias q | None => PsUnsafe end, []) db) r)
  | PaPod n :: r => ingest_types (qset n (PsPod, []) db) r
  | _ :: r => ingest_types db r
  end.

(** engine/src/conversion/analysis/pod/byvalue_checker.rs:256-266 [get_field_types]. *)
Fixpoint get_field_types (fields : list (option string * ty)) : pod_out (list qname) :=
  match fields with
  | [] => PoOk []
  | (_, TPath lead id _) :: r =>
      match path_name lead id with
      | None => PoPanic
      | Some q => pobind (get_field_types r) (fun l => PoOk (q :: l))
      end
  | _ :: r => get_field_types r
  end.
(** engine/src/conversion/analysis/pod/byvalue_checker.rs:268-275 [has_vtable]. *)
Definition has_vtable (fields : list (option string * ty)) : bool :=
  existsb (fun f => match fst f with Some id => String.eqb id "vtable_" | None => false end) fields.
(** engine/src/conversion/analysis/pod/byvalue_checker.rs:148-190 [ingest_struct]: the three cases in
    which the field's type is not known differ only in the text. *)
Definition fields_state (db : pod_db) (l : list qname) : pod_state :=
  if existsb (fun q => match qget q db with None | Some (PsUnsafe, _) => true | _ => false end) l
  then PsUnsafe else PsSafe.
Definition ingest_struct (db : pod_db) (n : qname) (fields : list (option string * ty)) : pod_out pod_db :=
  pobind (get_field_types fields) (fun l =>
    PoOk (qset n (if has_vtable fields then PsUnsafe else fields_state db l, l) db)).
(** engine/src/conversion/analysis/pod/byvalue_checker.rs:134-138, the second loop. *)
Fixpoint ingest_structs (db : pod_db) (apis : list pod_api) : pod_out pod_db :=
  match apis with
  | [] => PoOk db
  | PaStruct n f :: r => pobind (ingest_struct db n f) (fun db1 => ingest_structs db1 r)
  | _ :: r => ingest_structs db r
  end.

(** engine/src/conversion/analysis/pod/byvalue_checker.rs:200-235 [satisfy_requests]. [stack] is
    [requests] with its last element first. *)
Fixpoint satisfy (fuel : nat) (db : pod_db) (stack : list qname) : pod_out pod_db :=
  match fuel with
  | 0 => PoFuel
  | S k =>
      match stack with
      | [] => PoOk db
      | t :: rest =>
          match qget t db with
          | None => PoErr
          | Some (PsUnsafe, _) => PoErr
          | Some (PsPod, _) => satisfy k db rest
          | Some (PsSafe, deps) => satisfy k (qset t (PsPod, deps) db) (rev deps ++ rest)
          | Some (PsAlias a, d) =>
              match qget a db with
              | None => satisfy k db (t :: a :: rest)
              | Some (st, _) => satisfy k (qset t (st, d) db) rest
              end
          end
      end
  end.
(** A bound on the number of rounds (ByValueProofs). *)
Definition pod_fuel (db : pod_db) (stack : list qname) : nat :=
  S (length stack + fold_right (fun e s => length (snd (snd e)) + s) 0 db).

(** engine/src/conversion/analysis/pod/byvalue_checker.rs:75-146 [new_from_apis]. [blocklist] and
    [requests] are the texts of the directives. *)
Definition new_from_apis (blocklist requests : list string) (apis : list pod_api) : pod_out pod_db :=
  let db0 := fold_left (fun m b => qset (new_from_cpp_name b) (PsUnsafe, []) m) blocklist base_db in
  pobind (ingest_types db0 apis) (fun db1 =>
  pobind (ingest_structs db1 apis) (fun db2 =>
    let stack := rev (map new_from_cpp_name requests) in satisfy (pod_fuel db2 stack) db2 stack)).

(** engine/src/conversion/analysis/pod/byvalue_checker.rs:242-250 [is_pod]. *)
Definition is_pod (db : pod_db) (q : qname) : bool :=
  match qget q db with Some (PsPod, _) => true | _ => false end.

(** * engine/src/conversion/analysis/pod/mod.rs *)

(** engine/src/conversion/analysis/pod/mod.rs:36-40 [FieldInfo]. *)
Record field_info := FI { fi_ty : ty; fi_kind : tkind; fi_opaque : bool }.
(** A field of a struct written by bindgen: name, whether it is [pub], type. *)
Record bindgen_field := BF { bf_name : option string; bf_public : bool; bf_ty : ty }.

Definition name_starts (p : string) (o : option string) : bool :=
  match o with Some id => starts_with p id | None => false end.

(** engine/src/conversion/analysis/pod/mod.rs:215-271 [get_struct_field_types]: dependencies, definition
    dependencies, field infos, new APIs, number of errors. [conv] is [convert_type] in the context of the
    struct. *)
Record fields_out := FO { fo_deps : list qname; fo_def_deps : list qname; fo_info : list field_info;
                          fo_extra : list concrete_api; fo_errors : list cpp_error }.
Fixpoint get_struct_field_types (conv : concretes -> ty -> concretes * out annotated) (cs : concretes)
    (fields : list bindgen_field) (acc : fields_out) : concretes * out fields_out :=
  match fields with
  | [] => (cs, OOk acc)
  | f :: r =>
      match conv cs (bf_ty f) with
      | (cs1, OErr e) =>
          get_struct_field_types conv cs1 r (FO (fo_deps acc) (fo_def_deps acc) (fo_info acc) (fo_extra acc) (fo_errors acc ++ [e]))
      | (cs1, OPanic) => (cs1, OPanic)
      | (cs1, OFuel) => (cs1, OFuel)
      | (cs1, OOk a) =>
          if name_starts "_base" (bf_name f) || name_starts "__bindgen_padding" (bf_name f)
          then get_struct_field_types conv cs1 r
                 (FO (fo_deps acc) (fo_def_deps acc) (fo_info acc) (fo_extra acc ++ ann_extra a) (fo_errors acc))
          else
            let dd := match ann_ty a with TPath l i _ => match path_name l i with Some q => Some [q] | None => None end | _ => Some [] end in
            match dd with
            | None => (cs1, OPanic)
            | Some dd =>
                get_struct_field_types conv cs1 r
                  (FO (fold_left (fun d q => qinsert q d) (ann_deps a) (fo_deps acc))
                      (fold_left (fun d q => qinsert q d) dd (fo_def_deps acc))
                      (fo_info acc ++ [FI (ann_ty a) (ann_kind a)
                         (match bf_name f with Some id => String.eqb id "_bindgen_opaque_blob" | None => false end)])
                      (fo_extra acc ++ ann_extra a) (fo_errors acc))
            end
      end
  end.

(** engine/src/conversion/analysis/pod/mod.rs:274-289 [get_bases]. *)
Fixpoint get_bases (fields : list bindgen_field) : out (list (qname * bool)) :=
  match fields with
  | [] => OOk []
  | f :: r =>
      match bf_ty f with
      | TPath l i _ =>
          if name_starts "_base" (bf_name f)
          then match path_name l i with
               | None => OPanic
               | Some q => match get_bases r with
                           | OOk m => OOk (match qget q m with Some _ => m | None => (q, bf_public f) :: m end)
                           | o => o
                           end
               end
          else get_bases r
      | _ => get_bases r
      end
  end.

(** engine/src/conversion/analysis/pod/mod.rs:43-60 [PodAnalysis]. *)
Record pod_analysis := PA { pa_kind : type_kind; pa_bases : list qname; pa_castable : list qname;
  pa_field_deps : list qname; pa_field_def_deps : list qname; pa_fields : list field_info;
  pa_generics : nat; pa_anon : bool }.

(** engine/src/conversion/analysis/pod/mod.rs:142-213 [analyze_struct]. [fatal] is the error of
    [check_for_fatal_attrs]; [allowlisted] is [config.is_on_allowlist]. *)
Definition analyze_struct (db : pod_db) (conv : concretes -> ty -> concretes * out annotated) (cs : concretes)
    (allowlisted : string -> bool) (fatal : option cpp_error) (n : qname) (generics : nat) (rvalue_fields : bool)
    (fields : list bindgen_field) : concretes * out (pod_analysis * list concrete_api) :=
  match fatal with
  | Some e => (cs, OErr e)
  | None =>
      match get_bases fields with
      | OErr e => (cs, OErr e) | OPanic => (cs, OPanic) | OFuel => (cs, OFuel)
      | OOk bases =>
          tbind (get_struct_field_types conv cs fields (FO [] [] [] [] [])) (fun cs1 fo =>
            let mk k := (cs1, OOk (PA k (map fst bases)
                           (filter (fun b => allowlisted (to_cpp_name b)) (map fst (filter snd bases)))
                           (fo_deps fo) (fo_def_deps fo) (fo_info fo) generics
                           (existsb (starts_with "_bindgen_mod") (qn_ns n)), fo_extra fo)) in
            if existsb fi_opaque (fo_info fo) then mk Opaque
            else if is_pod db n
                 then if rvalue_fields then (cs1, OErr (EOther "RValueReferenceField"))
                      else match fo_errors fo with e :: _ => (cs1, OErr e) | [] => mk Pod end
                 else mk NonPod)
      end
  end.
