(** engine/src/conversion/codegen_cpp/type_to_cpp.rs: spelling types in C++. *)
From Verif Require Import Base QNamesModel KnownTypesModel ApiModel TypesModel.

(** engine/src/conversion/codegen_cpp/type_to_cpp.rs:25 [CppNameMap], 30-40 [new_from_apis]: the original C++ names bindgen reported,
    collected into a map. *)
Definition name_map := list (qname * string).
Definition name_map_from (l : list (qname * option string)) : name_map :=
  fold_left (fun m p => match snd p with Some c => qset (fst p) c m | None => m end) l [].

(** engine/src/conversion/codegen_cpp/type_to_cpp.rs:45-55 [map]. *)
Definition map_name (m : name_map) (q : qname) : string :=
  match qget q m with
  | Some cpp => join "::" (qn_ns q ++ [cpp])
  | None => to_cpp_name q
  end.

(** [str::rsplit_once("::")], the part after. *)
Fixpoint after_last_cc (s : string) : option string :=
  match s with
  | EmptyString => None
  | String c rest =>
      match after_last_cc rest with
      | Some r => Some r
      | None => if starts_with "::" s then match rest with String _ r => Some r | EmptyString => None end else None
      end
  end.
(** engine/src/conversion/codegen_cpp/type_to_cpp.rs:61-70 [get_final_item], engine/src/parse_callbacks.rs:65-67
    [get_final_segment_for_special_members]. *)
Definition map_final_item (m : name_map) (q : qname) : string :=
  match qget q m with
  | Some n => match after_last_cc n with Some s => s | None => qn_item q end
  | None => qn_item q
  end.

(** engine/src/conversion/codegen_cpp/type_to_cpp.rs:150-155 [get_mut_string]. *)
Definition mut_string (mut : bool) : string := if mut then "" else "const ".

(** [syn::Path::is_ident]: one segment, no arguments. *)
Definition is_ident (name : string) (t : ty) : bool :=
  match t with TPath [] id [] => String.eqb id name | _ => false end.

(** engine/src/conversion/codegen_cpp/type_to_cpp.rs:73-141 [type_to_cpp]. [UnsupportedType] and [UnknownType] are one error here. *)
Fixpoint type_to_cpp (m : name_map) (t : ty) : conv string :=
  match t with
  | TPath lead id args =>
      match path_name lead id with
      | None => CPanic
      | Some q =>
          let root := map_name m q in
          if String.eqb root "Pin" then
            match args with
            | TNonType _ :: _ | [] => CPanic
            | a :: _ => type_to_cpp m a
            end
          else
            match args with
            | [] => COk root
            | _ => cbind (cmap (fun a => match a with TNonType _ => COk "" | _ => type_to_cpp m a end) args)
                     (fun l => COk (root +++ "<" +++ join ", " l +++ ">"))
            end
      end
  | TRef mut _ u =>
      if is_ident "str" u then COk "rust::Str"
      else cbind (type_to_cpp m u) (fun s => COk (mut_string mut +++ s +++ "&"))
  | TPtr mut u => cbind (type_to_cpp m u) (fun s => COk (mut_string mut +++ s +++ "*"))
  | TArray _ _ | TOther _ | TNonType _ => CErr (EOther "UnsupportedType")
  end.
