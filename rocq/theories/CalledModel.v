(** The attributes of a function in the [extern "C++"] block of the bridge, which tell cxx what to call. *)
From Verif Require Import Base QNamesModel ApiModel TypesModel ByValueModel ConversionModel FnAnalysisModel.

(** engine/src/conversion/codegen_rs/fun_codegen.rs:174-182, inside gen_function, with
    engine/src/parse_callbacks.rs:95-107 [does_not_match_cxxbridge_name], [generate_cxxbridge_name_attribute]:
    the [cxx_name] attribute. *)
Definition cxx_name_attr (fa : fn_analysis) : option string :=
  match fa_cpp_call fa with
  | Some c => if negb (String.eqb (fa_bridge fa) c) && match fa_wrapper fa with Some _ => false | None => true end then Some c else None
  | None => None
  end.
(** engine/src/conversion/codegen_rs/fun_codegen.rs:193-203, inside gen_function: the [namespace] attribute; empty stands
    for none. *)
Definition namespace_attr (name : qname) (fa : fn_analysis) : list string :=
  match qn_ns name, fa_wrapper fa with
  | [], _ | _, Some _ => []
  | ns, None => ns
  end.
