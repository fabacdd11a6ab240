# Design

Formal model of google/autocxx (source in /repo, read as text, never built or run) in Coq 8.16.1, using the
standard library that comes with it and nothing else.

## Layout

All Coq files are in `rocq/theories/`, logical prefix `Verif`. Per area `X` there are up to four files:

* `XModel.v`: executable definitions only. Each cites the file and lines of /repo it models and says where it simplifies.
* `XSpec.v`: independent specifications (only where they are long: `ApiSpec.v`, `TypesSpec.v`, `CxxClassSpec.v`, `ParseBindgenSpec.v`).
* `XProofs.v`: lemmas.
* `XProps.v`: specification predicates which do not use the model's helpers, the property theorems,
  `Print Assumptions` after each, and an `Example` showing that the hypotheses are met by a non-trivial case.

Shared: `Base.v` (strings, qualified names, association lists), `ApiModel.v` (the API items which the passes exchange),
`TypesModel.v` (Rust types as `syn` has them), `ConversionModel.v` (conversion policies).

Conventions: Rust names are Coq `string`s; `IndexMap`/`IndexSet` are insertion-ordered lists; a `HashMap` is a list
whose order is a parameter where it can be observed; loops become folds or recursion on explicit fuel with a
distinguished out-of-fuel value, which theorems exclude by a proved bound; panics are explicit values; errors are
explicit values. A property which is false of the code is stated in full and refuted by a `*_refuted` theorem with a
concrete witness; the part that is true is proved, in a `*_partial` theorem where the hypotheses cut off part
of the English claim.

How a theorem is tested: bugs are seeded into the model definitions in a scratch copy and everything is rebuilt
(`seeded/LOG.jsonl`). If nothing fails although the English claim is then false, a theorem is added or tightened; the log
names it.

## Properties

Per property: status, where it is proved, the theorems, and what is missing or found.

* **C01 One API per name** (proved; `ApiVecProps.v`). `c01_one_api_per_name`, `c01_drained_collection_index_stale`. For every operation history. The collection drained by append is the exception: its index is stale, as stated by the second theorem; no caller reuses one.
* **C02 No pushed API vanishes** (proved; `ApiVecProps.v`). `c02_no_name_vanishes`, `c02_clash_leaves_duplicate_marker`, `c02_ignored_stays_ignored`, `c02_push_leaves_other_names_alone`, `c02_exact_outcome`. All pushes onto any reachable collection; c02_exact_outcome says which item every name ends up holding, for every list.
* **C03 Dependencies come first** (proved; `DepthFirstProps.v`). `c03_dependencies_first`. Any item type, any dependency relation, distinct names.
* **C04 Traversal terminates; panics exactly on cycles** (proved; `DepthFirstProps.v`). `c04_terminates_panics_exactly_on_cycles`, `c04_for_every_api_collection`, `c04_duplicate_names_refuted`. Distinct names are guaranteed by C01; without them the traversal can panic on an acyclic input (refuted theorem).
* **C05 Garbage collection keeps exactly what is reachable** (proved; `GcProps.v`). `c05_keeps_exactly_reachable`, `c05_every_collection`. Allowlist predicate and C++ name rendering are parameters.
* **C06 Garbage collection is closed and always terminates** (proved; `GcProps.v`). `c06_output_closed_under_dependencies`, `c06_always_terminates`. Termination for arbitrary lists, closure for distinct names.
* **C07 No binding depends on an ignored or unknown item** (partial; `RemoveIgnoredProps.v`). `c07_no_ignored_dependency_partial`, `c07_closed_input`, `c07_unknown_dependency_chain_refuted`, `c07_subclass_holder_refuted`. The full claim is false of the code (two refutations); the partial theorem says exactly which dependencies can dangle.
* **C08 Dependency filtering loses no name and terminates** (proved; `RemoveIgnoredProps.v`). `c08_loses_no_name_and_terminates`, `c08_reason_reported`. Any API list with distinct names; the reason attached to each dropped item is also characterised.
* **C09 Names handed to cxx are legal and unambiguous** (proved; `NameCheckProps.v`). `c09_exactly_the_bad_are_ignored`, `c09_survivors_legal_and_unambiguous`, `c09_panics_only_on_non_identifiers`, `c09_unchecked_names_refuted`. Every API list. Kinds the checker deliberately skips (Rust types, extern types, concrete types...) may keep names cxx rejects; c09_unchecked_names_refuted exhibits one. Lexer validity and cxx's reserved-word list are parameters.
* **C10 Overload names are unique per type** (partial; `TrackersProps.v`). `c10_exact_names`, `c10_overload_names_unique_partial`, `c10_overload_names_unique_refuted`. False in general: f, f, f1 gives f1 twice. Proved exactly when the requested names do not themselves end in an overload number, and the exact name of every request is characterised.
* **C11 Bridge names are unique** (partial; `TrackersProps.v`). `c11_bridge_names_unique_partial`, `c11_never_new`, `c11_names_derived_from_request`, `c11_bridge_names_unique_refuted`, `c11_method_name_refuted`. False in general: two requests for do and one for do_autocxx1 collide. Proved for requests that cannot spell a generated suffix; never-new holds for all histories.
* **C12 C++ wrapper function names are unique** (partial; `TrackersProps.v`). `c12_wrapper_names_unique_partial`, `c12_wrapper_names_unique_refuted`, `c12_wrapper_differs_from_plain`, `c12_wrapper_differs_from_make_string`, `c12_wrappers_of_different_blocks`. False in general: foo and foo_ share a wrapper. Proved for bridge names that do not differ only by a trailing underscore.
* **C13 Synthesised names do not collide** (partial; `SynthNamesProps.v`). `c13_alloc_free_determine_type`, `c13_alloc_free_distinct_across_collection`, `c13_subclass_names_determine_subclass`, `c13_superclass_traits_determine_superclass`, `c13_trait_items_partial`, `c13_overrides_partial`, `c13_cast_names_partial`, `c13_remove_ownership_clash_refuted`, `c13_trait_items_refuted`, `c13_overrides_refuted`, `c13_cast_to_same_named_bases_refuted`, `c13_cast_separator_refuted`. Allocation, deallocation, holder, peer, ownership-removal and superclass trait names are injective for all names. Names joined with an underscore (trait items, overrides) and cast names are injective only under the stated side conditions; outside them concrete clashes are proved.
* **C14 POD status is closed under fields** (partial; `ByValueProps.v`, `PodStructProps.v`). `c14_fields_of_pod_are_pod_partial`, `c14_pod_all_the_way_down_partial`, `c14_typedef_refuted`, `c14_array_refuted`, `c14_opaque_refuted`. Proved for all definition lists in which no typedef names an unmovable built-in type and no built-in name is redeclared. Array fields are not followed by the code, typedefs of std::string are, and structs bindgen could not describe count as POD: each is refuted by a concrete input.
* **C15 Unsafe types are never accepted as POD** (partial; `ByValueProps.v`). `c15_forbidden_never_accepted_partial`, `c15_forbidden_is_an_error_partial`, `c15_accepted_requests_are_pod_partial`, `c15_refusal_has_a_reason`, `c15_typedef_request_refuted`. Same hypotheses as C14; requesting a typedef of std::string is accepted silently (refuted). Also proved: every refusal has a reason, among them the order of declarations.
* **C16 POD analysis terminates and is minimal** (proved; `ByValueProps.v`). `c16_terminates`, `c16_pod_only_if_needed`. No hypotheses on the inputs.
* **C17 Implicit constructors follow the C++ rules** (partial; `ImplicitCtorsProps.v`). `c17_default_and_destructor_partial`, `c17_copy_partial`, `c17_move_partial`, `c17_public_members_partial`, `c17_nonconst_copy_refuted`, `c17_nonconst_copy_move_refuted`, `c17_move_assignment_refuted`, `c17_wrapped_references_refuted`, `c17_member_destructor_refuted`, `c17_unknown_destructor_refuted`. Proved against an inductive statement of the C++ rules (CxxClassSpec.v) for every class hierarchy. The full statement is false: refuted for classes declaring T(T&), for a declared move assignment operator, under wrapped references, for members with inaccessible destructors (move), and for classes with unknown parts (destructor). Left out of the C++ side: const members, defaulted members, default member initialisers, virtual bases.
* **C18 Implicit-constructor propagation is sound for bases and fields** (proved; `ImplicitCtorsProps.v`). `c18_parts_offer_it`, `c18_known_parts_destructible`, `c18_unknown_parts_destructor_only`. Members' destructors are not consulted for moves, as the statement of c18_parts_offer_it says; the consequence is c17_member_destructor_refuted.
* **C19 Abstract classes are detected and never constructed** (partial; `AbstractTypesProps.v`). `c19_marked_iff_abstract_partial`, `c19_no_constructors_partial`, `c19_opaque_refuted`, `c19_opaque_base_refuted`. Marked iff a pure virtual function is left un-overridden (C++ rule by signature), for classes that are not opaque and whose opaque bases are roots; no constructor of a marked class is left. False for opaque classes (two refutations). Virtual inheritance, pure virtual destructors and signatures differing only by reference kind are not represented.
* **C20 Typedef resolution terminates** (proved; `TypedefsProps.v`). `c20_resolution_correct`, `c20_recursive_exactly_when_cyclic`, `c20_order_independent`, `resolve_correct`. Resolution through any typedef map terminates, yields the end of the chain, and reports recursion exactly for cyclic chains.
* **C21 Each template instantiation gets its own name** (partial; `ConcreteNamesProps.v`). `c21_one_name_per_instantiation_partial`, `c21_start_condition_kept`, `c21_names_acceptable_to_cxx`, `c21_user_name_clash_refuted`, `c21_value_arguments_refuted`. Proved for instantiations with type arguments when no user-chosen name has the form the fallback counter produces; both restrictions are needed, as the refutations show.
* **C22 Built-in type table is self-consistent** (partial; `KnownTypesProps.v`). `c22_lookup_is_by_spelling`, `c22_spellings_disjoint`, `c22_lookups_never_panic`, `c22_pod_facts_never_panic`, `c22_facts_agree`, `c22_copy_facts_partial`, `c22_copy_facts_refuted`, `c22_pod_safe_copy_refuted`, `c22_ctype_pod_refuted`. Lookup, aliasing, disjoint spellings and panic freedom proved for the whole table and all strings; three of the expected fact agreements are false and refuted.
* **C23 Qualified names round-trip** (proved; `QNamesProps.v`). `c23_cpp_name_roundtrip`, `c23_builtin_roundtrip`, `c23_cpp_names_distinct`, `c23_display_roundtrip`, `c23_segments_inverse`, `c23_parse_never_panics`, `c23_builtin_name_refuted`, `c23_single_colon_refuted`. User-defined names whose segments contain no colon; built-ins round-trip up to their canonical spelling.
* **C24 Private, deleted and unsupported functions are never callable** (proved; `AbstractTypesProps.v`, `FnAnalysisProps.v`). `c24_never_callable`, `c24_supported_kept`, `c24_problem_functions_discarded`. Every C++ function with one of 14 faults gets no bridge function, wrapper or re-export; a public function without fault is kept; and functions marked as problematic are replaced by an error. analyze_foreign_fn and gen_function are modelled in full.
* **C25 Raw pointers and unsafe policy force unsafe** (partial; `FnAnalysisProps.v`). `c25_pointer_unsafe`, `c25_bridge_pointer_unsafe`, `c25_default_policy_unsafe`, `c25_pointer_behind_reference_refuted`. Proved for all functions, with casts and destructors assumed to take only 'this' (which is all autocxx synthesises). Under the default policy trait methods are excepted. Finding: a reference to a raw pointer is not seen as a raw pointer.
* **C26 Returned references have exactly one possible origin** (partial; `FnAnalysisProps.v`). `c26_one_origin`, `c26_one_origin_kept`, `c26_typedef_reference_refuted`. Proved for every function declared to return an lvalue reference (constructors and special members excepted: they return nothing) and conversely. Refuted for a reference return type hidden behind a typedef.
* **C27 Unsafe operations are always inside unsafe** (proved; `FnCodegenProps.v`). `c27_statements_guarded`, `c27_order_kept`, `c27_wrapper_guarded`, `c27_statements_lean`, `c27_wrapper_lean`, `c27_blocks_are_transparent`. For every list of statements and every generated wrapper. Needless or nested unsafe blocks are excluded for wrappers whose result conversion does not come with a placement destination (predicate simple_result).
* **C28 Generated lifetimes are declared** (partial; `FnCodegenProps.v`). `c28_declared`, `c28_shared`, `c28_tied`, `c28_wrapped_result_refuted`. Proved for every signature whose input types do not already mention 'a. Sharing and tying are proved for references, pinned references and impl types; they fail for CppLtRef results, whose lifetime no parameter carries.
* **C29 Allowlist directives conflict in either order** (proved; `ConfigProps.v`). `c29_allowlist_is_what_was_asked`, `c29_mixing_refused`, `c29_conflict_exactly_when_mixed`. Over every token stream of directives.
* **C30 The allowlist selects exactly the named items** (partial; `ConfigProps.v`). `c30_named_is_listed`, `c30_only_named_partial`, `c30_exact_without_namespaces`, `c30_namespace_prefix_refuted`, `c30_no_panic`, `c30_bindgen_names_listed`, `c30_pod_alone_not_listed`. Everything named is listed. The converse holds up to textual prefix: generate_ns!("foo") also lists foobar::X (refuted).
* **C31 Reproduction cases preserve the configuration** (partial; `ConfigProps.v`). `c31_round_trip`, `c31_print_stable`, `c31_same_decisions`, `c31_rust_type_path_refuted`, `c31_receiver_refuted`, `c31_order_refuted`. Proved for every configuration a macro can produce. Refuted for configurations extended by discovery of Rust code: multi-segment extern_rust_type paths do not parse, receivers are lost; and the hash-carrying value may change.
* **C32 autocxx_gen never silently overwrites its own output** (partial; `OutputProps.v`). `c32_success_iff`, `c32_conflicts_reported_partial`, `c32_error_is_a_conflict`, `c32_identical_accepted`, `c32_stale_file_refuted`, `c32_first_content_lost_refuted`. Exact condition for success is proved. Conflicts are always reported in a directory without the files; refuted when the first content is already on disk, because a skipped write is not recorded.
* **C33 generate-exact produces exactly N files** (proved; `OutputDepProps.v`, `OutputNamesProps.v`). `c33_exactly_n`, `c33_too_many_fails`, `c33_room_succeeds`, `c33_extension_h_refuted`. For extensions other than h and include.rs, which collide with other outputs.
* **C34 Dependency files list every input for every output** (partial; `OutputDepProps.v`). `c34_read_back`, `c34_every_file_is_an_output`, `c34_space_refuted`. Read back by an independent reader of make rules for paths free of blanks, colons, backslashes and line breaks; refuted for others, as nothing is escaped.
* **C35 Code generator and macro agree on file locations** (partial; `LocationsProps.v`). `c35_custom_directory`, `c35_out_dir`, `c35_file_custom_directory`, `c35_file_out_dir`, `c35_same_autocxx_rs_refuted`, `c35_relative_directory_refuted`. Holds from source file to compiler for an absolute custom directory and for OUT_DIR. Refuted when AUTOCXX_RS is set for both processes and for relative custom directories.
* **C36 Rebuilds with unchanged input touch nothing** (partial; `OutputDepProps.v`, `OutputProps.v`). `c36_last_content`, `c36_rerun_touches_nothing`, `c36_rerun_fails_refuted`, `c36_builder_last_content`, `c36_builder_rebuild_touches_nothing`, `c36_build_script_rebuild`. Holds when the contents asked for under each name agree; otherwise refuted.
* **C37 Bindings archive returns the right bindings** (partial; `LocationsProps.v`). `c37_last_with_hash`, `c37_exact_without_collisions`, `c37_macro_finds_partial`, `c37_macro_finds_refuted`. Lookups are exact when hashes do not collide. The macro finds the code of blocks which the generator does not change; refuted for blocks whose allowlist is completed before hashing.
* **C38 Every include_cpp! block is processed once; name clashes are errors** (proved; `ParseFileProps.v`). `c38_every_block_once`, `c38_names_distinct`, `c38_repeated_names`, `c38_files_distinct`. Every block and bridge at any depth, once and in order; names of all generated blocks differ or the error is reported; the Rust files differ.
* **C39 Every block is complete before generation** (partial; `ParseFileProps.v`). `c39_complete_partial`, `c39_nested_refuted`. Holds for blocks outside modules and for blocks which name something to generate; a block in a module which does not is never completed and makes the generator panic.
* **C40 Header names are unique** (proved; `OutputDepProps.v`, `OutputNamesProps.v`). `c40_header_names`, `c40_tool_names_distinct`, `c40_builder_names_distinct`, `c40_two_files_refuted`. Modules must be different over all files; the code checks it only within each file, which c40_two_files_refuted shows to matter.
* **C41 Namespace grouping loses and misplaces nothing** (proved; `NsProps.v`). `c41_entries_are_the_namespace`, `c41_each_item_once`, `c41_modules`, `c41_one_module_per_path`, `c41_is_empty`, `c41_output_module`, `c41_output_has_module`, `c41_output_order_refuted`. Every item lands once, in order, in the module of its namespace. Finding: the order of the impl blocks in the generated code comes from iterating a HashMap and is not determined by the input.
* **C42 Subclass ownership is memory safe** (partial; `SubclassRtProps.v`). `c42_faults_classified`, `c42_polite_is_safe_partial`, `c42_rust_owned_no_leak`, `c42_cpp_owned_no_leak`, `c42_alive`, `c42_self_owned_lives`, `c42_self_owned_deleted`, `c42_destroyed_in_upcall_refuted`, `c42_cpp_removes_ownership_refuted`, `c42_moved_out_refuted`. Every history: memory is misused only in the listed situations, nothing is destroyed twice, nothing leaks. The unconditional claim is false: three histories use a destroyed peer.
* **C43 Re-entrant upcalls panic, never alias** (proved; `SubclassRtProps.v`). `c43_never_aliased`, `c43_upcall_outcome`. Every history that does not move the Rust object out of its cell.
* **C44 Value parameters are constructed and destroyed exactly once** (partial; `ValueParamProps.v`). `c44_exactly_once`, `c44_call`, `c44_sources`, `c44_constructor_panic_refuted`, `c44_populate_twice_leaks`. Proved for every list of arguments of all kinds, including panics on null pointers; refuted when a constructor given to as_new panics: dropping the handler destroys an object that was never constructed.
* **C45 C++ references always denote the pinned object** (partial; `RefWrapperProps.v`). `c45_same_object`, `c45_different_objects`, `c45_one_owner`, `c45_assignment_refuted`, `c45_null_reference_refuted`. Same object proved for every sequence of conversions and moves without assignment through DerefMut, one owner for every sequence; refuted for that assignment (CppPin) and for null UniquePtr.
* **C46 Errors are isolated to the failing item** (proved; `ErrorReporterProps.v`). `c46_item_error_isolated`, `c46_error_isolated`, `c46_other_kinds_unchanged`, `c46_outputs_collected`, `c46_report_any_error`. Closures may carry state; isolation is stated relative to the state they thread.
* **C47 Facts recorded about C++ items are found again** (partial; `CallbacksProps.v`). `c47_marker_removed`, `c47_other_names_kept`, `c47_marker_inside_refuted`, `c47_facts_found`, `c47_facts_of_that_name_only`, `c47_panics_without_root`, `c47_overloads_confused_refuted`, `c47_public_report_ignored_refuted`. Proved for every sequence of callbacks in which no two items of a module have the same recorded name; refuted without that: an overloaded foo beside a function foo1 are confused. The qualified name is the one bindgen reports, after removal of the marker. A later report that an item is public does not undo an earlier one.
* **C48 Automatic allowlisting finds every ffi:: use** (partial; `DiscoverProps.v`). `c48_found_iff`, `c48_uses_found_partial`, `c48_nothing_else`, `c48_missed_refuted`, `c48_variable_refuted`. Found exactly in the places visited; a full list of places where uses are found; 24 places where uses are missed and the empty entry for a variable named ffi are refutations of the full claim.
* **C49 C++ conversions are inverse** (partial; `CppWrapperProps.v`). `c49_inverse`, `c49_override_typed`, `c49_super_typed`, `c49_rust_sees_what_cpp_passes`, `c49_reference_refuted`, `c49_rvalue_refuted`, `c49_move_panics_refuted`, `c49_unique_ptr_moved`, `c49_move_only_refuted`, `c49_super_move_only_refuted`. Overriding methods and superclass calls type-check and match the method overridden for parameters passed unchanged or through unique_ptr, copyable when by value. False of the code for wrapped references, rvalue references, std::unique_ptr parameters (panic) and move-only classes: refutations proved.
* **C50 C++ type spelling is faithful** (partial; `CppTypesProps.v`). `c50_spelling_correct_partial`, `c50_spelling_unambiguous`, `c50_different_types_different_spellings`, `c50_unsupported_rejected`, `c50_nested_names`, `c50_reference_to_pointer_refuted`, `c50_value_argument_dropped_refuted`. Faithful spelling proved for types without a const reference to a pointer and without non-type arguments; the refutations show both are misprinted.
* **C51 Generate directives are honoured or reported** (partial; `ParseBindgenProps.v`). `c51_success_means_found`, `c51_failure_names_the_directive`, `c51_nested_refuted`, `c51_ignored_item_counts_refuted`, `c51_namespace_unchecked_refuted`. Success means each directive matched the qualified name of an API before externs are replaced; failure names the first unmatched directive. Refuted parts: a nested class named by its C++ name is reported missing, an ignored item counts as a match, generate_ns! is never checked.
* **C52 Block directives are honoured** (partial; `ParseBindgenProps.v`, `TypeConverterDepsProps.v`). `c52_blocked_types_refused`, `c52_template_argument_refuted`, `c52_blocked_types_dropped_partial`, `c52_other_kinds_refuted`, `c52_nested_refuted`. Blocked structs and enums are not parsed and type conversion refuses them. Refuted parts: template arguments, typedefs/constants/functions, nested types by C++ name.
* **C53 Engine call protocol** (proved; `EngineProps.v`). `c53_nothing_after_generation`, `c53_output_of_this_configuration`, `c53_cpp_of_this_configuration`, `c53_parse_only`, `c53_other_calls_panic`, `c53_failure_changes_nothing`, `c53_parse_only_build_refuted`. All call sequences, from any fresh block; bindgen, the conversion and cxx's generator are parameters. Finding: a parse_only! block panics in a build, because include_dirs and generate_h_and_cxx panic on it.
* **C54 Suppressing system headers removes only system includes** (partial; `EngineProps.v`). `c54_exactly_system_includes`, `c54_carriage_returns`, `c54_off`, `c54_idempotent_partial`, `c54_idempotent_refuted`, `c54_other_text_kept_refuted`. Exactly the system includes are removed from texts of lines without carriage returns, and a carriage return before a newline changes nothing; the final newline is lost. Idempotence fails when the kept text ends with an empty line, and carriage returns are dropped.
* **C55 Trivially constructed subclasses are exactly those with one no-argument constructor** (proved; `SubclassGenProps.v`). `c55_peer_constructor`, `c55_subclass_constructors`, `c55_constructor_name_refuted`. Exact characterisation of when CppPeerConstructor is generated; every subclass constructor comes from a superclass constructor. Refuted: make_peer may call SCpp::new although only new1 exists.
* **C56 Extern C++ types replace what was parsed** (proved; `ParseBindgenProps.v`). `c56_exactly_one`, `c56_others_unchanged`. 
* **C57 Extern Rust function dependencies are complete** (partial; `ExternFunProps.v`). `c57_accepted_exactly`, `c57_deps_exact`, `c57_every_type_recorded`, `c57_bad_signatures_rejected_partial`, `c57_output_namespace_refuted`, `c57_panics_only_on_module_names`. The accepted signatures and recorded dependencies are characterised exactly; the rejection of namespaces excludes paths through root:: and output::, which the refutation shows are accepted.
* **C58 The analysis pipeline preserves soundness end to end** (partial; `PipelineProps.v`). `c58_unique_names`, `c58_reachable`, `c58_no_ignored_dependency_partial`, `c58_panics_only`, `c58_listed_items_present`, `c58_unknown_type_refuted`, `c58_unnameable_method_unreported_refuted`. Unique names, reachability, termination and presence of everything listed are proved for every run. Freedom from ignored dependencies is proved when every type mentioned exists as an item or is built in; it is refuted otherwise. A method of a listed class whose name is unusable vanishes without a report (refuted).
* **C59 Unqualified types lose only namespaces** (partial; `UnqualifyProps.v`). `c59_only_namespaces_removed`, `c59_idempotent`, `c59_identifies_only_namespaces`, `c59_injective_when_names_unique`, `c59_no_namespace_left_partial`, `c59_array_element_refuted`, `c59_signature`. Structure is kept, idempotence and injectivity up to namespaces hold for every type; that no namespace is left is proved for types without arrays and refuted for array elements.
* **C60 Converted types keep pointers and references and report them** (partial; `TypeConverterProps.v`). `c60_kind_describes_type`, `c60_pointers_reported`, `c60_declarators_kept`, `c60_pointer_typedefs_reported`, `c60_reference_typedef_refuted`, `c60_rvalue_typedef_refuted`. Proved for every type, environment and state. The claim fails for typedefs of references: a typedef of a const reference converts to a reference whose kind is Regular, and a typedef of an rvalue reference is reported as a plain pointer.
* **C61 Type conversion records every dependency** (proved; `TypeConverterDepsProps.v`). `c61_dependencies_complete`, `c61_named_type_recorded`. For every type, state and typedef map without duplicate names.
* **C62 Forward-declared types are never used by value** (partial; `TypeConverterDepsProps.v`). `c62_no_forward_declaration_by_value`, `c62_array_elements_refuted`. Proved for paths and containers; arrays of forward-declared types are accepted.
* **C63 Template instantiations met during conversion get an API** (partial; `TypeConverterDepsProps.v`). `c63_instantiations_registered_partial`, `c63_instantiation_in_container_refuted`. Names never change and every API made is registered; completeness holds only if the result contains no container, because APIs made while converting container arguments are dropped.
* **C64 Type conversion terminates** (partial; `TypeConverterDepsProps.v`). `c64_conversion_ends_partial`, `c64_outcome_independent_of_depth`, `c64_self_containing_typedef_refuted`. Ends whenever no typedef is mentioned in the arguments of what it stands for; a typedef standing for a vector of itself (impossible in C++) diverges.
* **C65 Struct analysis records bases, fields and dependencies** (proved; `PodStructProps.v`). `c65_kind`, `c65_bad_pod_refused`, `c65_fields_recorded`, `c65_bases`. The type converter is an arbitrary function here; C60 to C64 are about it.
* **C66 Wrappers pass each argument, converted, in its place** (partial; `FnCodegenProps.v`). `c66_wrapper_passes_arguments`, `c66_capture_refuted`. Proved by symbolic evaluation of the generated code for every wrapper whose parameter names avoid the generator's variables; refuted without that condition (a C++ parameter called space0).
* **C67 C++ wrappers type-check and pass arguments in order** (proved; `CppWrapperProps.v`). `c67_wrapper_typed`, `c67_arguments_in_order`, `c67_call_on_receiver`, `c67_allocators_included`, `c67_superclass_arguments`. Typing is for calls of functions, static methods, methods and constructors; order also for destructors and casts; superclass constructors take all parameters but the holder.
* **C68 Parsing bindgen's output loses no item, invents none and does not panic** (proved; `ParseBindgenProps.v`). `c68_every_item_represented`, `c68_nothing_invented`, `c68_no_panic`. 
* **C69 A function's receiver is the type of the impl block of the same module that calls it** (proved; `ParseBindgenProps.v`). `c69_receivers`, `c69_methods_have_receivers`. 
* **C70 Exported Rust items are found with their paths** (proved; `DiscoverProps.v`). `c70_functions`, `c70_types`, `c70_failure`, `c70_associated_function_refuted`. Exact characterisation of what is recorded and of failure, relative to the places which the search enters (see C48). An associated function without receiver is recorded as a method.
* **C71 Receivers of exported methods name their class** (partial; `DiscoverProps.v`). `c71_receiver_partial`, `c71_pin_refuted`. True for self, &self and &mut self; false for self: Pin<&mut Self>.
* **C72 Discoveries go to one block and leave the others alone** (partial; `ParseFileProps.v`). `c72_discoveries_go_to_one_block`, `c72_one_top_level_block`, `c72_added_block_clashes_refuted`, `c72_parse_only_refuted`. What is added to which block is exact. The last sentence is refuted: the added block clashes with an unnamed block in a module, and a parse_only! block panics.
* **C73 Module names of namespaces do not clash with autocxx's own names** (partial; `NsProps.v`). `c73_module_names`, `c73_module_names_refuted`. Proved for namespaces not called like one of autocxx's own names; a namespace called output, bindgen, cxxbridge or root defines a name twice.
* **C74 The traits, implementations, upcalls and super functions of a Rust subclass fit together** (partial; `SubclassGenProps.v`). `c74_supers_implemented`, `c74_impl_has_trait`, `c74_default_bodies`, `c74_upcalls_have_methods`, `c74_impls_pass_parameters`, `c74_super_functions`, `c74_overrides_methods`, `c74_override_parameters_refuted`, `c74_trait_item_names_refuted`, `c74_super_names_refuted`, `c74_super_function_missing_refuted`. Proved where trait item names differ; four refutations: unsupported parameter of a pure virtual method, clashing trait item names, a method named m_super, and a super function that was ignored.
* **C75 A class that is kept keeps what copies, moves and allocates its values** (proved; `PipelineProps.v`). `c75_constructor_dependencies`, `c75_management_kept`. Dependencies characterised exactly; keeping is proved for lists in which every type mentioned exists.
* **C76 Every C type of variable length that is used is declared, and nothing is lost for it** (partial; `PipelineProps.v`). `c76_ctypes_declared`, `c76_clash_refuted`. Proved unless an API already has the name of the declaration in the root namespace; refuted then: a class called c_int is lost.
* **C77 Functions are safe to call only if the macro says so** (proved; `ConfigProps.v`). `c77_policy_is_what_was_said`, `c77_safe_only_if_said`, `c77_misspelt_refused`. For every token sequence the parser accepts.
* **C78 Typedefs of what was refused** (partial; `FrontProps.v`). `c78_targets_usable_partial`, `c78_never_itself`, `c78_opaque_only_if_hopeless`, `c78_forward_errors_kept`, `c78_nested_refuted`, `c78_use_refuted`. Proved for the composition of the passes. Not true, and refuted: for a nested typedef refused by the same pass, and for use items, whose dependencies are not recorded. Names which autocxx makes up are excluded.
* **C79 No API lost or invented before function analysis** (partial; `FrontProps.v`). `c79_nothing_lost_partial`, `c79_nothing_invented`, `c79_list_is_collection`. Parsed items whose name is one that autocxx makes up are not covered: they can clash (C81).
* **C80 Casts exactly to public allowed bases** (partial; `FrontProps.v`). `c80_casts_to_bases_partial`, `c80_only_to_bases`. The cast can be replaced by an ignored item when its name clashes (c13_cast_to_same_named_bases_refuted); names that end like those of allocation functions are excluded.
* **C81 Storage functions for exactly the stored types** (partial; `FrontProps.v`). `c81_alloc_and_free_partial`, `c81_only_for_stored_types`, `c81_pairing_refuted`. A C++ function with the name of one of the two leaves the other unpaired (refuted).
* **C82 Function analysis accounts for every API** (proved; `FnDriverProps.v`). `c82_account`, `c82_result`. analyze_functions with its fixed sets, the special members, the subclass constructors and the concrete types is modelled on the APIs the earlier phases make.
* **C83 Special members added once and never beside a declared one** (partial; `FnDriverProps.v`). `c83_members_added_once`, `c83_member_kinds`, `c83_reserved_class_name_refuted`. False for the default constructor of a nested class whose name Rust reserves (c83_reserved_class_name_refuted); proved for all others, for a hash not ending in an underscore.
* **C84 Types in kept signatures exist** (partial; `KeptProps.v`). `c84_signatures_partial`, `c84_dangling_refuted`. False for a type reached through a typedef which was itself refused (c84_dangling_refuted); the theorem allows for exactly that.
* **C85 What the user lists leaves a trace** (partial; `ListedProps.v`). `c85_listed_items_partial`, `c85_listed_methods_partial`, `c85_listed_functions_partial`, `c85_silent_refuted`. Proved for items which are not functions, for methods of listed classes which are not templates and are in the method's namespace, and for free functions which neither an overload number nor a wrapper renames. The full statement is false: c85_silent_refuted is a listed function which disappears without an error, because its error is filed under the name of its wrapper.
* **C86 The generated C++ header and source hold together** (partial; `CppGenProps.v`). `c86_header`, `c86_source`, `c86_total`, `c86_nothing`, `c86_bridge_partial`, `c86_conversion`, `c86_cxx_h_refuted`, `c86_class_missing_refuted`, `c86_no_header_refuted`, `c86_nested_superclass_refuted`. The text of header and source is proved for all API lists. Refuted: cxx.h is not included for a subclass with exclude_utilities and no POD types; a refused subclass leaves functions on a class that is not written; only an orphan override makes the bridge expect a header that is not there; the class of a subclass of a nested class has a base class that does not exist.
* **C87 Each generated function calls the C++ function it stands for** (partial; `CalledProps.v`). `c87_called_partial`, `c87_result_partial`, `c87_numbered_method_refuted`. What is called is what is meant, for each function the analysis keeps. Missing: names which mislead the recognition of constructors are excluded by hypothesis; for a method called like its class with a number behind the claim is refuted. A free function for which bindgen reports no C++ name must not have been renamed as an overload.
* **C88 Names in the generated Rust code lead somewhere** (partial; `RsGenProps.v`). `c88_bridge_types`, `c88_bridge_impls`, `c88_subclass_helpers`, `c88_paths`, `c88_impl_blocks_partial`, `c88_refused_subclass_refuted`. Proved of the whole list of APIs and of whole conversions. The claim about impl blocks is partial: with a Rust subclass whose superclass is refused it is false (c88_refused_subclass_refuted), and blocks holding only error entries are left out. Types named in signatures are C84's; documentation, lints and the text of the generated items are not modelled.
* **C89 Types in the signatures told to cxx are told to cxx** (partial; `BridgeTypesProps.v`). `c89_types_partial`, `c89_typedefs_partial`, `c89_typedef_refuted`, `c89_override_refuted`. Partial: kept items that are no type of their own (typedefs within pointer typedefs, templates), types of lost subclasses, items broken as in C84 and C types whose name is taken are excluded; c89_typedef_refuted shows a typedef within a pointer typedef left undeclared. For signatures in the extern Rust block the claim is false: c89_override_refuted shows an overriding function which names a refused class.
* **C90 From bindgen's items to the bridge** (partial; `ParseFullProps.v`). `c90_same_apis`, `c90_contents`, `c90_well_formed`, `c90_attributes`, `c90_settings`, `c90_functions`, `c90_paths`, `c90_types_partial`, `c90_known_name_refuted`. Parsing with contents is composed with every later phase up to the generated Rust. Partial because the types of signatures (c90_types_partial) inherit the exceptions of C89 and need that no declared type has a built-in name; c90_known_name_refuted shows a class named Pin is dropped without an error while functions taking it are kept.
* **C91 Everything kept is in the generated Rust code** (partial; `RsAllProps.v`). `c91_present_partial`, `c91_implementations`, `c91_default_peer`, `c91_definitions`, `c91_functions`, `c91_listed_partial`, `c91_abstract_template_refuted`. Presence is proved for every item but templates which are abstract; c91_abstract_template_refuted exhibits one, derived from an abstract class, for which nothing is generated and no error says so. Functions which are not public have no place by design. What a trait method is called is not modelled.
* **C92 The Rust code can be generated for everything which survived analysis** (partial; `RsTotalProps.v`). `c92_function_partial`, `c92_generated_partial`, `c92_converted_partial`, `c92_pin_refuted`. Partial: constructors and destructors are assumed to be as C++ has them, the methods offered to subclasses to have their receiver, and nothing kept to depend on a type with a name of Rust's Pin. The last assumption is needed: c92_pin_refuted is a run on valid C++ which panics.
* **C93 The preprocessor of the book keeps the text, and shows and tests every code example** (partial; `MdBookProps.v`). `c93_lines`, `c93_chapter`, `c93_book`, `c93_extract`, `c93_hexathorpes`, `c93_unescape_partial`, `c93_backslash_refuted`, `c93_unclosed_refuted`. Partial: the C++ code is the value of its literal only if quotes are all that is escaped (c93_backslash_refuted), and an unclosed example is dropped (c93_unclosed_refuted); positions are in bytes, so that text beyond ASCII is not covered.
* **C94 The reduction tool tests what it was asked to reduce** (partial; `ReduceProps.v`). `c94_asked`, `c94_preprocessed`, `c94_define_refuted`, `c94_resume`, `c94_suppressions`, `c94_repro`, `c94_repro_empty`, `c94_repro_refuted`, `c94_discovered_refuted`, `c94_same_command`, `c94_script`, `c94_rustc`, `c94_blank_refuted`, `c94_seen`, `c94_named_refuted`, `c94_run`. What is asked for, the commands, the script and the order of the run are proved as stated, for arguments which bash takes as they are. Refuted: macro definitions reach clang without -D; arguments with blanks are split by the script; bindings of a named macro are never looked at; the case of a macro which names nothing to generate ends the tool in a panic; the case of a macro in a file with a Rust type exported from a module is refused. Processes and bash are modelled by what they are given and by the rules of && and grep.
* **C95 A build from a build script hands everything it was given to the parser, bindgen, the generators and the compiler** (partial; `BuilderProps.v`). `c95_options`, `c95_requests`, `c95_includes`, `c95_compiled`, `c95_listed`, `c95_bindings`, `c95_rust_files`, `c95_no_macros`, `c95_bridge_only`, `c95_bridge_only_refuted`, `c95_parse_only_refuted`. The include directories do not reach the C++ compiler when the file has only cxx::bridge modules (c95_bridge_only, c95_bridge_only_refuted), and a parse_only! block ends the build in a panic (c95_parse_only_refuted). Writing files and the compiler itself are outside the model.
* **C96 A build records every header it depends on** (proved; `DepsProps.v`). `c96_cargo`, `c96_failure`, `c96_depfile`. That bindgen calls back for every file it reads is outside the model.
* **C97 Rust items marked for C++ are exported or refused** (partial; `AttrProps.v`). `c97_unchanged`, `c97_types`, `c97_functions`, `c97_methods`, `c97_refused`, `c97_function_as_type_refuted`, `c97_trait_refuted`. False of a function marked as a type and of a method of a trait, which the compiler accepts but the engine silently leaves out (c97_function_as_type_refuted, c97_trait_refuted).
* **C98 Additional headers can be included repeatedly and together** (partial; `GuardProps.v`). `c98_alone`, `c98_guarded`, `c98_twice`, `c98_second_block`, `c98_balanced`, `c98_two_blocks_refuted`. The first two halves hold for every header whose conditional groups are closed, and c98_balanced says that they are if the user's inclusions and the written types and declarations close theirs. The last is false: all headers have the guard __AUTOCXXGEN_H__, so of the headers of two blocks the one read second is lost (c98_second_block for all pairs, c98_two_blocks_refuted with a declaration which is lost).
* **C99 The preprocessed header written for reports is the headers of the block** (partial; `DumpProps.v`). `c99_input`, `c99_written`, `c99_panics`, `c99_comment_ended_refuted`. Holds if the printed configuration does not end the comment around it and the headers close the comments they open. The first is not ensured: the configuration is printed unescaped (c99_comment_ended_refuted).
* **C100 There is one implementation of each trait for each type** (proved; `TraitKeyProps.v`). `c100_equal`, `c100_hash`, `c100_one_each`, `c100_as_listed`. Keys are compared by the text of their tokens. That an entry of a hash map is found exactly if hash and key are equal is the standard library's. c100_as_listed ties this to the output of C41.
* **C101 The engine and the library agree on C++'s integers** (proved; `CtypeProps.v`). `c101_wrapped`, `c101_distinct`. For every qualified name; the table of built-in types is finite and checked entry by entry. Which C type each type of std::os::raw stands for is taken from Rust's documentation.
* **C102 The macro hands on what the build script reads** (partial; `IncludeMacroProps.v`). `c102_same`, `c102_directives`, `c102_undocumented`, `c102_undocumented_refuted`, `c102_order_refuted`, `c102_hash_refuted`. The tokens handed on are those read whenever both accept them, and every known directive but two is accepted after the headers. Refuted: extern_rust_function and parse_only are accepted by the build script and refused by the macro; so is a header after a directive; and #generate is taken for #include by the macro only.

## Findings

Each is proved of the model by a theorem with a concrete witness. The text is the comment of the theorem.

* `c04_duplicate_names_refuted`: Without distinct names the traversal can panic although nothing is cyclic: two items called "a" waiting for "b".
* `c07_unknown_dependency_chain_refuted`: An API ignored for an unknown dependency is not itself recorded as ignored, so its dependents survive.
* `c07_subclass_holder_refuted`: A subclass that gets ignored still counts as providing its Holder type, so a constructor taking the holder survives.
* `c09_unchecked_names_refuted`: The APIs of the other kinds are not checked: their names may hold double underscores. Also bindgen's markers pass although cxx rejects every double underscore.
* `c10_overload_names_unique_refuted`: The full claim is false: methods f, f and f1 of one class get names f, f1 and f1.
* `c11_bridge_names_unique_refuted`: The full claim is false: free functions do, do and do_autocxx1. (The name checker, C09, then rejects both clashing functions.)
* `c11_method_name_refuted`: Also a method merely called `autocxx1` can clash, through its class's name.
* `c12_wrapper_names_unique_refuted`: The exception is real: functions `foo` and `foo_`.
* `c13_remove_ownership_clash_refuted`: Different kinds can meet across subclasses: subclasses A and ACpp.
* `c13_trait_items_refuted`: Underscores in names make two trait items one: method `b_c` of `A` and method `c` of `A_b` have the same name.
* `c13_overrides_refuted`: Likewise the overrides for method `b_c` of subclass `A` and for method `c` of subclass `A_b`.
* `c13_cast_to_same_named_bases_refuted`: Two bases with the same unqualified name: the casts to both get one name, and collecting them leaves only a duplicate marker, so neither cast is generated.
* `c13_cast_separator_refuted`: And across classes: A_to_B cast to C against A cast to B_to_C.
* `c14_typedef_refuted`: A struct with one field of a typedef of `std::string` is accepted as POD.
* `c14_array_refuted`: An array field is not looked at.
* `c14_opaque_refuted`: C14, at the level of the kinds: a struct which bindgen could not describe is opaque, yet counts as POD for a struct that holds it.
* `c15_typedef_request_refuted`: Asking for a typedef of `std::string` to be POD is accepted in silence, and has no effect.
* `c17_nonconst_copy_refuted`: A class with `T(T&)` is given a copy constructor taking `const T&`.
* `c17_nonconst_copy_move_refuted`: It is given a move constructor too.
* `c17_move_assignment_refuted`: A declared move assignment operator does not stop autocxx from claiming a copy constructor.
* `c17_wrapped_references_refuted`: With wrapped references even a deleted copy constructor is overlooked.
* `c17_member_destructor_refuted`: A move constructor is claimed although a member has a private destructor.
* `c17_unknown_destructor_refuted`: Destructors of classes with unknown parts are claimed whatever C++ says.
* `c19_opaque_refuted`: An opaque class with a pure virtual function is not marked, and its constructor stays.
* `c19_opaque_base_refuted`: A class derived from an opaque class which inherits a pure virtual function is not marked.
* `c21_user_name_clash_refuted`: Without the condition on user-chosen names two instantiations can share a name: the user calls one AutocxxConcrete2, and two others sanitise to the same thing.
* `c21_value_arguments_refuted`: Arguments which are not types are left out of the C++ spelling, so two instantiations which differ only there get one name.
* `c22_copy_facts_refuted`: ... and what does not: `std::shared_ptr` and `std::weak_ptr` are recorded as having a copy constructor and, elsewhere, as lacking one (engine/src/known_types.rs:242-253 against 391-409); `char16_t` the other way round.
* `c22_pod_safe_copy_refuted`: A type safe as POD may lack a copy constructor (`std::unique_ptr`).
* `c22_ctype_pod_refuted`: A ctype need not be POD (`void`).
* `c23_builtin_name_refuted`: For built-in types the name itself is not preserved ...
* `c23_single_colon_refuted`: ... and forbidding only the double colon in segments would not be enough.
* `c25_pointer_behind_reference_refuted`: The raw pointer rule looks at the outside of the type only: `void f(uint8_t*& x)` may be called without unsafe under the safe policy, although the C++ code may read through the pointer inside.
* `c26_typedef_reference_refuted`: A result which is a reference by way of a typedef (`typedef const A& R; R f();`) is not seen as a reference: the function is offered with no origin for the borrow at all.
* `c28_wrapped_result_refuted`: Under the policy which wraps references, the lifetime of the result is declared but no parameter carries it: `const A& f(const A& a)` becomes `fn f<'a>(a: CppRef<A>) -> CppLtRef<'a, A>`, which the caller may use for any lifetime at all.
* `c30_namespace_prefix_refuted`: `generate_ns!("foo")` also allowlists `foobar::X`, a class of another namespace, and `foo_init`, a function of none.
* `c31_rust_type_path_refuted`: A Rust type discovered in a module, whose path has two segments, is printed as `extern_rust_type!(m::T)`, which is refused: the directive reads a single identifier.
* `c31_receiver_refuted`: A discovered Rust method loses its receiver: it comes back as a free function.
* `c31_order_refuted`: Same meaning is not the same value: items are printed before namespaces and extern types before opaque ones, so that a hash of the configuration, which names the generated string utility, may change.
* `c32_stale_file_refuted`: C32 fails if the first content is on disk already: the write is skipped and not recorded, so that a second content silently replaces it. This happens when a second block with the same file name is added after a first successful run.
* `c32_first_content_lost_refuted`: When the conflict is reported, the first content is already lost.
* `c33_extension_h_refuted`: If the extension is "h", sources and headers collide.
* `c34_space_refuted`: Nothing is escaped: a path with a space becomes two prerequisites.
* `c35_same_autocxx_rs_refuted`: With AUTOCXX_RS in the environment of both, the build script writes below the directory "rs" of that directory and the macro reads from the directory itself.
* `c35_relative_directory_refuted`: A directory which is not absolute is taken from where the build script runs when it is written, and from the directory of the source file when it is read.
* `c36_rerun_fails_refuted`: A run may succeed and the same run, repeated, fail (from the gap of C32).
* `c37_macro_finds_refuted`: A block which does not say what to generate, or one to which discoveries are added, is not found by the macro, even if all hashes differ: its configuration was changed before it was hashed.
* `c39_nested_refuted`: A block in a module which says nothing about what to generate makes the generator panic.
* `c40_two_files_refuted`: Module names need only be different within one file: two files whose blocks have the same module name ask for two headers of one name.
* `c41_output_order_refuted`: The order of the `impl` blocks is not determined by the input: two runs may write different code for the same results.
* `c42_destroyed_in_upcall_refuted`: C++ destroys the peer of a C++-owned object during an upcall of that object, and the object then uses its peer.
* `c42_cpp_removes_ownership_refuted`: C++ calls the public method `cpp_remove_ownership` of the class of a self-owned object which no Rust code refers to: the peer is destroyed inside its own method.
* `c42_moved_out_refuted`: The Rust object of a C++-owned subclass is moved out with `mem::take` in a method with `&mut self`, kept, and used after its peer is destroyed: all this is safe Rust.
* `c44_constructor_panic_refuted`: A constructor which panics: the handler already says that its space has an object, and dropping the handler destroys an object which was never constructed. This holds for every such argument, whatever comes before and after it.
* `c45_assignment_refuted`: `DerefMut` lets safe code put another reference into a pin: then the pin stands for two objects.
* `c45_null_reference_refuted`: Safe code gets a C++ reference to nothing from a null `UniquePtr`, through `as_cpp_mut_ref` and `deref` of a `CppUniquePtrPin` and through `as_cpp_ref` of the `UniquePtr`; only `as_cpp_ref` of the pin checks it.
* `c47_marker_inside_refuted`: A C++ name which contains the marker itself loses everything after it: two different classes may get the same recorded name.
* `c47_overloads_confused_refuted`: Two overloads `foo` beside a function `foo1`: bindgen numbers the second overload, so that after removing the marker both it and `foo1` are known as `foo1`. The pure virtual overload is then taken for an ordinary function, and what is returned for it was said of another item.
* `c47_public_report_ignored_refuted`: A later report that an item is public does not undo an earlier one.
* `c48_missed_refuted`: Places where it does not look: the target of a cast, the parameters and the result of a closure, the pattern of a loop, the pattern of a match arm, explicit generic arguments of a method, the type of a struct literal, the other branch of `let else`, the parameters and the result of methods, of trait functions, fields of structs, `const`, `static` and `type` items, imports, self types of qualified paths, the length of an array type, what is behind `@` in a pattern, range patterns, the type and the trait of an `impl`, and bounds of generic parameters.
* `c48_variable_refuted`: The name `ffi` alone, as that of a variable, puts the empty name on the list.
* `c49_reference_refuted`: The other conversions are not: those between pointers and references name the pointer type on both sides, so the overriding method takes a pointer where the method it overrides takes a reference.
* `c49_rvalue_refuted`: The conversion of an rvalue reference is not undone either: the overriding method would take the object by value and hand Rust a `unique_ptr`, where Rust expects a pointer.
* `c49_move_panics_refuted`: A parameter moved into C++ has no inverse: generating an overriding method for it panics, whatever else the method takes.
* `c49_move_only_refuted`: The overriding method copies the parameter even if the class can only be moved: then the C++ written does not compile.
* `c49_super_move_only_refuted`: So does the call of the superclass's method.
* `c50_reference_to_pointer_refuted`: A const reference to a pointer comes out as a reference to a pointer to const.
* `c50_value_argument_dropped_refuted`: A generic argument which is not a type is dropped instead of being rejected.
* `c51_nested_refuted`: C51: likewise, asking for a class inside a class by its C++ name fails although it is there.
* `c51_ignored_item_counts_refuted`: C51: something which cannot be generated satisfies a directive too: only an error marker remains of it, and parsing succeeds.
* `c51_namespace_unchecked_refuted`: C51: a namespace which does not exist may be asked for without error.
* `c52_template_argument_refuted`: The arguments of a template which is not built in are not looked at: `Foo<Bad>` gets a Rust name although `Bad` is blocked.
* `c52_other_kinds_refuted`: C52: a blocked name of a typedef, a constant or a function is not dropped.
* `c52_nested_refuted`: C52: the C++ name of a class inside a class is not recognised, since bindgen's name for it is compared.
* `c53_parse_only_build_refuted`: A block which is only parsed cannot be used in a build: its include directories and its C++, which a build asks for, panic.
* `c54_idempotent_refuted`: An empty line at the end is lost by each further removal; and carriage returns before newlines are lost.
* `c54_other_text_kept_refuted`: A carriage return before a newline is lost although no line is a system include.
* `c55_constructor_name_refuted`: `make_peer` calls `SCpp::new`, but a constructor with a parameter which is not supported takes the name `new` and is then ignored; the only constructor left is called `new1`.
* `c57_output_namespace_refuted`: `fn f(a: &output::A)` is accepted, and its dependency is recorded as plain `A`.
* `c58_unknown_type_refuted`: C58 without the hypothesis that every type exists: `g` is kept although the type it needs is in error.
* `c58_unnameable_method_unreported_refuted`: A method whose name cannot be used, of a class the user lists, leaves no trace at all: the error made for it by name checking is filed under the method, not under the class, and is collected.
* `c59_array_element_refuted`: The element type of an array behind a pointer keeps its namespace.
* `c60_reference_typedef_refuted`: `typedef const A& R;`: converting the target gives `&A`, and converting `R` then gives a reference which is not reported as one.
* `c60_rvalue_typedef_refuted`: `typedef A&& R;`: through the typedef, an rvalue reference becomes a plain pointer.
* `c62_array_elements_refuted`: An array of a forward-declared type is let through, although its elements are used by value.
* `c63_instantiation_in_container_refuted`: `unique_ptr<Foo<B>>` makes the name `Foo_B_AutocxxConcrete`, but no API for it; and since the spelling now has a name, no later conversion makes one either.
* `c64_self_containing_typedef_refuted`: `X` standing for `vector<X>` (not something C++ allows) would make the conversion run forever.
* `c66_capture_refuted`: Without that condition the claim fails: in `void f(A a, uint8_t space0)` the variable invented for `a` hides the parameter called `space0`.
* `c70_associated_function_refuted`: An associated function without a receiver is exported as if it were a method.
* `c71_pin_refuted`: But `self: Pin<&mut Self>` is left as it is.
* `c72_added_block_clashes_refuted`: A file with a single block cannot be generated when that block is in a module, has no name and something is exported: the block which is added to hold the export has the same name.
* `c72_parse_only_refuted`: A file whose block is only parsed makes the program panic when something is exported.
* `c73_module_names_refuted`: A C++ namespace called `output` (or `bindgen`, `cxxbridge`, `root`) makes the generated code define a name twice, although names are checked elsewhere.
* `c74_override_parameters_refuted`: A pure virtual method with a parameter of a type which is not supported is still overridden, by a C++ method and a call into Rust without the parameter. The C++ method overrides nothing.
* `c74_trait_item_names_refuted`: The names of two trait items can be the same for different methods: then the calls from C++ of the second have no method. This is why `reaches` asks for different names.
* `c74_super_names_refuted`: A virtual method `m_super` next to a virtual method `m`: the two traits, one of which extends the other, declare methods of the same name with different parameters, and the body of `m` calls it.
* `c74_super_function_missing_refuted`: A virtual method with a parameter of a type which is not supported: the method which calls the superclass is ignored and the override goes with it, but the trait item stays and the implementation of the `_supers` trait calls the method which is not there.
* `c76_clash_refuted`: A class of the user's called `c_int` is lost as soon as anything kept uses `int`.
* `c78_nested_refuted`: There is one pass over the typedefs. A nested typedef of something refused is refused in that pass, and a typedef of it keeps it as its target.
* `c78_use_refuted`: For a `use` no dependency is recorded, so that its target stays, even if it was refused.
* `c81_pairing_refuted`: A C++ function called `Base_autocxx_free` takes the deallocation function away from the class `Base`, which keeps its allocation function; neither of the two is left under that name.
* `c83_reserved_class_name_refuted`: C83 fails for that class: what is added for it as a default constructor is analysed as an ordinary method called `type_`, whose wrapper calls a C++ method that does not exist, and the class has no default constructor.
* `c84_dangling_refuted`: A template instantiated within the argument of another: no item is made for the instantiation, the typedef mentioning it is refused, and the function taking the typedef is kept although the type in its signature does not exist. `template <class T> struct Tmpl; typedef std::unique_ptr<Tmpl<Base>> *PX; void f(PX);`
* `c85_silent_refuted`: C85. A free function which the user lists can disappear without a trace. `f` takes a `Base` by value and so needs a wrapper; it also takes a pointer to something refused, and so is refused. Its error is filed under the name of the wrapper, which is not what the user listed, so garbage collection throws away the function and the error. Nothing is left, though the listed name was parsed.
* `c86_cxx_h_refuted`: C86. A subclass's class has a member of type `rust::Box`, which is declared in `cxx.h`; with `exclude_utilities!` and no POD types the header does not include it.
* `c86_class_missing_refuted`: C86. A subclass is refused because its superclass is, and so its class is not written, but its constructor and what allocates it are: the header declares functions on a class `SubCpp` which does not exist.
* `c86_no_header_refuted`: C86. If moreover `c::Sub` is a class, the subclass is refused for its own name and only its override remains. No C++ is generated for it alone, but the bridge expects some, and generating it panics.
* `c86_nested_superclass_refuted`: C86. The class of a subclass names its superclass as Rust does: that of a nested class has a base class which does not exist.
* `c87_numbered_method_refuted`: A method whose name is that of its class with a number behind is taken for a constructor, as bindgen numbers overloaded constructors in that way: `void Foo::Foo1(int)` becomes `Foo::new1` in Rust, and calling that builds a new `Foo` from the number instead.
* `c88_refused_subclass_refuted`: C88. The functions made for a Rust subclass name its C++ class even when the subclass itself is refused, because its superclass was: cxx is told of functions of a type it is told nothing about, and there is an `impl` block for a type which does not exist. Here the superclass `Base` could not be understood, nor could the type of the parameter of its method `m`.
* `c89_typedef_refuted`: A typedef of a pointer is replaced by that pointer as it was written, so that a typedef within it stays: the function told to cxx takes a pointer to the typedef `B`, of which cxx is told nothing.
* `c89_override_refuted`: A class which is refused is still named by the Rust function which overrides a pure virtual method taking it: the method itself is refused, but the overriding function depends on nothing that its signature names.
* `c90_known_name_refuted`: A class of the name of a type known to autocxx, such as `Pin` or `String`, is dropped without an error, but the functions which take it are not: they are told to cxx with a type of which cxx is told nothing.
* `c91_abstract_template_refuted`: C91. A template derived from an abstract class is kept and analysed, but nothing is generated under its name: no type, and no error which would say why there is none. `struct Base { int x; virtual void n() = 0; }; template <class T> struct D : Base { T y; };`
* `c92_pin_refuted`: A class of the name `Pin` is taken for Rust's `Pin`, which has a parameter. Where a lifetime has to be written for the signature of a function which takes it, this parameter is not found, and the run ends in a panic, although the headers are valid C++ and nothing is wrong with them.
* `c93_backslash_refuted`: An escaped backslash stays doubled in the C++ code which is shown and tested: `char c = '\\n';` is not the value of the literal.
* `c93_unclosed_refuted`: An example whose code block is not closed is neither shown nor tested, nor is that an error.
* `c94_define_refuted`: A macro to be defined, asked for by `-D` or `--define`, is given to the preprocessor as it is, without `-D` before it: clang takes it for the name of another file to be preprocessed.
* `c94_repro_refuted`: Such a macro is accepted, and its case is written:
* `c94_discovered_refuted`: The configuration of which a case is written has also the Rust types found in the file with `extern_rust_type`, by their paths. The case of a macro in a file where one of them is in a module is written, but the tool refuses it.
* `c94_blank_refuted`: An argument for clang with a blank in it, one argument of the sample run, is several of the script.
* `c94_named_refuted`: If the macro was given a name by `name!`, the bindings are in another file than the one which the script shows and compiles: only what the generator itself prints can be interesting, and neither the bindings nor the compilers are ever looked at.
* `c95_bridge_only_refuted`: The directories given to the builder are only passed on to the C++ compiler with a block: if the file has only `cxx::bridge` modules, which are generated and compiled too, the compiler is given no directory at all, not even the one with cxx.h and the generated headers.
* `c95_parse_only_refuted`: A block with `parse_only!`, which parsing and generation accept, makes the build panic rather than end with an error, whatever else is in the file.
* `c97_function_as_type_refuted`: A function marked with `extern_rust_type` is accepted by the compiler, although the error for other items says that only structs and enums are expected, but is silently not exported.
* `c97_trait_refuted`: A method of a trait, with a default body, marked with `extern_rust_function` is accepted by the compiler but is silently not exported; one of an `impl` of a trait is an error.
* `c98_two_blocks_refuted`: C98. A C++ file which includes the headers of two blocks of a program does not see what the second declares.
* `c99_comment_ended_refuted`: C99. The configuration is not escaped: Rust prints the characters of strings as they are, but for quotes and those which cannot be seen. A name with the end of a comment in it, which a macro can ask for, ends the comment, and the rest of the configuration is given to the compiler.
* `c102_undocumented_refuted`: C102. The build script accepts a macro with `extern_rust_function` and one with `parse_only`, generates code for the first, and the compiler then refuses both. The examples of the documentation use `parse_only` with the procedural macro itself.
* `c102_order_refuted`: C102. The build script accepts a header after a directive; the compiler refuses it.
* `c102_hash_refuted`: C102. The compiler takes `#generate` for `#include`: the macro gets a header of which the build script knows nothing.

## Trusted base

### Checked by Coq

* The Coq 8.16.1 kernel, with its virtual machine for `vm_compute` (used in examples, in refutations with a concrete
  witness, and in finite checks over the built-in type table). No `native_compute`, no plugins, no OCaml code, no extraction.
* No axioms: `Print Assumptions` says "Closed under the global context" for every theorem of every `*Props.v` file, that is
  for every theorem in MANIFEST.json (each is followed by its `Print Assumptions` in the source, so the build shows it).
  A global listing of a loaded context also shows seven `Under_rel` constants of the standard library's ssreflect plugin files,
  on which no theorem depends.
* No `Admitted`, no unfinished obligation, no switched-off check, no functors or module types, no `Declare Module`, no `Variable` or
  `Hypothesis` outside a section.

### Trusted by the reader

* The reading of the Rust source into the models: nothing links the two except the citations. Line numbers are checked
  against the source by a script, the meaning is not.
* The independent specifications: what `make` reads in a dependency file (`OutputDepProps.v`), what C++ says about implicitly declared
  special members (`CxxClassSpec.v`), about abstract classes (`AbstractTypesProps.v`), about types, value categories and
  overload of wrapper calls (`CppTypesProps.v`, `CppWrapperProps.v`), what Rust says about temporaries, drop order, `Rc`, `RefCell`
  (`SubclassRtModel.v`, `ValueParamModel.v`) and evaluation of the generated wrappers (`FnCodegenProps.v`).

### Parameters: what theorems hold for whatever they do

These are section variables or fields of environment records; the theorems are quantified over them.

| Parameter | Stands for |
|---|---|
| `builtin`, `known`, `ctype` | questions to the table of built-in types (`KnownTypesModel.v` models the table itself, C22) |
| `lexes`, `reserved` | whether a text is a Rust identifier; cxx's reserved words |
| `on_allowlist`, `to_cpp_name`, `allowlisted` | the allowlist of the configuration (modelled in `ConfigModel.v`) and the C++ spelling of a name |
| `hash` | the hash of the configuration |
| `fun_deps` | dependencies of an extern Rust function (modelled in `ExternFunModel.v`) |
| `cb` | what bindgen's callbacks reported (modelled in `CallbacksModel.v`) |
| fields of `tc_env` | known types, blocklist, forward declarations, typedefs and concrete names the type converter consults |
| fields of `fn_env` | the same for function analysis, with policy, subclasses and the type converter (`convert_type`) |
| `conv` | the type converter in struct analysis (C65) |
| `bi` | special members of built-in types (C17) |
| `copyable`, `movable`, `callee` | which C++ classes can be copied and moved, and which C++ functions exist (C49, C67) |
| `readable`, `io`, `relativize`, `outdir` | which files can be read and written, relative paths, the output directory (C32-C36) |
| fields of `acfg` | the configuration, the built-in names and `check_for_fatal_attrs` in the phases before function analysis (C78-C81) |
| fields of `dcfg` | the same with the safety policy, the constructor blocklist, the hash in names and the text of a type, for function analysis as a whole (C82-C86) |
| fields of `cpp_options` | the C++ options, the names of the generated files and of the string constructor (C86) |
| fields of `rs_options` | the safety policy, the superclasses with generated traits, the name of the string constructor, and which types can be moved or destroyed (C88) |
| `with_self` | printing a signature whose `self` got a type (C70, C71) |
| `nightly`, `prelude`, `convert`, `cxx_gen`, `gen` | the compiler, the text put before the headers, bindgen with the conversion, cxx's generator (C53, C38) |
| `tokens`, `open`, `of_json`, `print_mod` | Rust's lexer, files, the JSON reader, printing a module (C35, C37) |
| `order_ty`, `order_key`, `ty_eqb`, `key_eqb` | iteration order of hash maps and equality of keys (C41) |

### Not modelled

* bindgen and clang, cxx, syn's parser and printer, rustc: their results are inputs.
* Whole files: see the last table. Spans and source positions in error messages, logging, documentation comments.
* C17: const members, members defaulted by `= default`, default member initialisers, virtual bases, unions.
* C19: virtual inheritance, pure virtual destructors, signatures differing only in the kind of reference.
* C32, C36: directories, file permissions beyond readable and writable, two path texts for one file, partly written files.
* C42, C43: code of the user's own `Drop`, panics of `make_peer`, weak counts, a superclass without virtual destructor, threads.
* C44: the contents of objects, C++ exceptions, destructors which panic.
* C45: lifetimes, destruction of objects referred to, the traits available only on nightly.
* C55, C74: the constructors which C++ declares by itself are among the functions given; API collections are lists.
* C58: parsing is modelled and proved about on its own; C90 composes it with the phases after it (`ParseFullModel.v`, `converted`).
* C82, C83: documentation comments and `make_ident`; API collections are lists.
* C84: that names of items from parsing are distinct, that parsing leaves typedef targets unconverted, that a `use` names a plain
  path, and that no declared type has a built-in name, are hypotheses on the list of parsed APIs. C90 proves all but the last of parsing.
* C85: that names of items from parsing are distinct and that an error which parsing leaves is about the item it stands at are
  hypotheses on the list of parsed APIs, which C90 proves of parsing.
* C86: `sanitize` of error marks and the order of `HashMap`s (the C++ names; each is looked up by name only); the text of the user's inclusions is taken as it is.
* C88: documentation, lints and `use` lines at the head of modules; the signatures of the user's own functions; that parsing names the string constructor
  as the configuration does and puts subclasses at the top are hypotheses on the list of parsed APIs, which C90 proves of parsing.
* C90: documentation, attributes other than `link_name`; a list of allowed items that is empty (asking then panics; here the answer is no).
* C91: whether the analysis of constructors says truly which types can be moved and destroyed (C17 and C18 are about that); the names of trait methods.
* C92: that bindgen writes constructors and destructors as C++ has them (the object first, nothing returned), that the method a subclass may override is analysed for it with its receiver, and that renamings are of bindgen's own items; panics of the pretty printer and of `parse_quote!` on names.
* C93: what syn makes of the text of an example (the spans of the arguments, whether Rust code parses) and whether a test passes are parameters; the order in which tests run in parallel, what they print, and the JSON mdbook exchanges; characters and blanks beyond ASCII (spans count characters while slices count bytes, so that text beyond ASCII before an argument on its line shifts what is taken).
* C94: of the reduction tool, the parsing of the command line by clap, failures of the file system and of starting processes, and what clang, creduce, rustc and the generator do (the output of the preprocessor, the help of creduce and the outcome of each command of the script are parameters); bash is modelled by splitting at blanks of lines whose words have no special character, by && and by the status of a pipe; grep's patterns are taken for plain texts; the tokens of a reproduction case stand for its text; regex word characters beyond ASCII.
* C95: bindgen with the parsing of its output and the conversion (`convert`), cxx's code generator (`cxx_gen`), the printing of modules, the names the header namers give, the text of cxx.h and the items of bridges are arbitrary functions. Making directories and writing files succeed; the check of the Rust version passes; the C++ compiler is only the list of directories and files it is given.
* C96: which files bindgen reads and reports for a request (`reads`), and the making of relative paths for the dependency file, are parameters; printing succeeds.
* C97: that syn takes the tokens of a method for those of a function item, and the expansion of attributes by rustc.
* C98: what a C++ preprocessor does is part of the specification and simplified: `#ifndef`, `#define`, `#endif` and other conditions taken to hold; no `#undef`, `#else` or `#pragma once`, and included files are not read.
* C99: clang and the text Rust's derived `Debug` prints for a configuration are parameters; that a C++ compiler sees all of a text but what is between `/*` and `*/` is part of the specification, which does not know line comments and literals.
* C100: that Rust's HashMap finds an entry exactly if the hash of its key and the key are equal, and that a string gives the hasher its bytes and then 255.
* C101: which C++ type each type of Rust's `std::os::raw` stands for, and that `#[repr(transparent)]` keeps the layout of what is inside.
* C102: that rustc matches `macro_rules` patterns with repetitions as written and refuses a path to a macro which does not exist; the tokens are those of C31.
### Modelled and unmodelled source files

Lines of code (without blank lines and comments) inside the ranges which definitions cite, of all lines of code. A range is cited when a
definition models what it does, with the simplifications said there; test code, imports and the `Debug` and `Display` of types are among the rest.

| File | cited / lines | Models |
|---|---|---|
| engine/src/ast_discoverer.rs | 446 / 681 | AttrModel, DiscoverModel |
| engine/src/builder.rs | 176 / 215 | BuilderModel, LocationsModel, OutputModel |
| engine/src/conversion/analysis/abstract_types.rs | 170 / 195 | AbstractTypesModel, DepthFirstModel, SubclassGenModel |
| engine/src/conversion/analysis/allocators.rs | 80 / 93 | FrontModel, SynthNamesModel |
| engine/src/conversion/analysis/casts.rs | 90 / 116 | FrontModel, SynthNamesModel |
| engine/src/conversion/analysis/constructor_deps.rs | 73 / 87 | PipelineModel |
| engine/src/conversion/analysis/ctypes.rs | 14 / 22 | PipelineModel |
| engine/src/conversion/analysis/deps.rs | 47 / 84 | ApiModel |
| engine/src/conversion/analysis/depth_first.rs | 38 / 86 | DepthFirstModel |
| engine/src/conversion/analysis/fun/bridge_name_tracker.rs | 38 / 93 | TrackersModel |
| engine/src/conversion/analysis/fun/function_wrapper.rs | 155 / 209 | ConversionModel, FnAnalysisModel |
| engine/src/conversion/analysis/fun/implicit_constructors.rs | 487 / 526 | DepthFirstModel, FnDriverModel, ImplicitCtorsModel |
| engine/src/conversion/analysis/fun/mod.rs | 1862 / 2015 | ApiModel, CppGenModel, FnAnalysisModel, FnCodegenModel, FnDriverModel, ImplicitCtorsModel, RsGenModel, SubclassGenModel, TrackersModel |
| engine/src/conversion/analysis/fun/overload_tracker.rs | 22 / 51 | TrackersModel |
| engine/src/conversion/analysis/fun/subclass.rs | 224 / 250 | CppWrapperModel, SubclassGenModel, SynthNamesModel |
| engine/src/conversion/analysis/gc.rs | 33 / 41 | GcModel |
| engine/src/conversion/analysis/name_check.rs | 71 / 83 | NameCheckModel |
| engine/src/conversion/analysis/pod/byvalue_checker.rs | 193 / 305 | ByValueModel |
| engine/src/conversion/analysis/pod/mod.rs | 209 / 238 | ApiModel, ByValueModel, FrontModel |
| engine/src/conversion/analysis/remove_ignored.rs | 80 / 86 | ApiModel, RemoveIgnoredModel |
| engine/src/conversion/analysis/replace_hopeless_typedef_targets.rs | 59 / 72 | FrontModel |
| engine/src/conversion/analysis/tdef.rs | 91 / 116 | FrontModel |
| engine/src/conversion/analysis/type_converter.rs | 536 / 655 | ConcreteNamesModel, FrontModel, TypeConverterModel, TypedefsModel |
| engine/src/conversion/api.rs | 320 / 443 | ApiModel, CppGenModel, FnAnalysisModel, FnDriverModel, FrontModel, PipelineModel, SubclassGenModel, SynthNamesModel, TraitKeyModel |
| engine/src/conversion/apivec.rs | 64 / 85 | ApiVecModel, FrontModel |
| engine/src/conversion/codegen_cpp/function_wrapper_cpp.rs | 84 / 92 | CppWrapperModel |
| engine/src/conversion/codegen_cpp/mod.rs | 619 / 669 | CppGenModel, CppWrapperModel, OutputModel, SubclassGenModel, SubclassRtModel |
| engine/src/conversion/codegen_cpp/new_and_delete_prelude.rs | 21 / 24 | CppGenModel |
| engine/src/conversion/codegen_cpp/type_to_cpp.rs | 104 / 119 | CppGenModel, CppTypesModel |
| engine/src/conversion/codegen_rs/fun_codegen.rs | 292 / 411 | CalledModel, FnAnalysisModel, FnCodegenModel, RsGenModel, ValueParamModel |
| engine/src/conversion/codegen_rs/function_wrapper_rs.rs | 192 / 203 | FnCodegenModel, ValueParamModel |
| engine/src/conversion/codegen_rs/impl_item_creator.rs | 30 / 32 | RsGenModel |
| engine/src/conversion/codegen_rs/lifetime.rs | 163 / 193 | FnCodegenModel |
| engine/src/conversion/codegen_rs/mod.rs | 906 / 1100 | CppGenModel, FnCodegenModel, NsModel, RsGenModel, SubclassGenModel, SubclassRtModel, TraitKeyModel |
| engine/src/conversion/codegen_rs/namespace_organizer.rs | 44 / 113 | NsModel |
| engine/src/conversion/codegen_rs/non_pod_struct.rs | 25 / 29 | RsGenModel |
| engine/src/conversion/codegen_rs/unqualify.rs | 38 / 87 | FnCodegenModel, UnqualifyModel |
| engine/src/conversion/codegen_rs/utils.rs | 16 / 18 | RsGenModel |
| engine/src/conversion/convert_error.rs | 157 / 249 | ApiModel, ApiVecModel, ErrorReporterModel, ExternFunModel, ParseBindgenModel |
| engine/src/conversion/error_reporter.rs | 185 / 197 | ErrorReporterModel, FrontModel, ParseFullModel |
| engine/src/conversion/mod.rs | 109 / 199 | AbstractTypesModel, CppGenModel, EngineModel, FnDriverModel, FrontModel, OutputModel, ParseBindgenModel, ParseFullModel, PipelineModel |
| engine/src/conversion/parse/extern_fun_signatures.rs | 148 / 223 | ExternFunModel, ParseBindgenModel |
| engine/src/conversion/parse/parse_bindgen.rs | 302 / 351 | ParseBindgenModel, ParseFullModel |
| engine/src/conversion/parse/parse_foreign_mod.rs | 106 / 141 | ParseBindgenModel, ParseFullModel |
| engine/src/conversion/type_helpers.rs | 80 / 84 | ConversionModel, TypeConverterModel |
| engine/src/conversion/utilities.rs | 5 / 11 | ParseBindgenModel, ParseFullModel |
| engine/src/cxxbridge.rs | 8 / 29 | BuilderModel, OutputModel |
| engine/src/known_types.rs | 377 / 464 | EngineModel, KnownTypesModel, RemoveIgnoredModel, TypeConverterModel |
| engine/src/lib.rs | 436 / 571 | BuilderModel, CppGenModel, DepsModel, DumpModel, EngineModel, NsModel, OutputModel, ParseFileModel, ReduceModel |
| engine/src/output_generators.rs | 13 / 23 | LocationsModel |
| engine/src/parse_callbacks.rs | 197 / 277 | CallbacksModel, CalledModel, CppTypesModel, DepsModel |
| engine/src/parse_file.rs | 306 / 366 | BuilderModel, DepsModel, LocationsModel, OutputModel, ParseFileModel |
| engine/src/types.rs | 122 / 252 | CallbacksModel, FnAnalysisModel, GcModel, KnownTypesModel, NameCheckModel, QNamesModel, RsGenModel, TypeConverterModel, TypesModel |
| gen/build/src/lib.rs | 14 / 37 | DepsModel |
| gen/cmd/src/depfile.rs | 36 / 78 | OutputModel |
| gen/cmd/src/main.rs | 334 / 418 | DepsModel, OutputModel |
| macro/src/lib.rs | 66 / 103 | AttrModel, SubclassRtModel |
| parser/src/config.rs | 316 / 435 | ConfigModel, CppGenModel, FnAnalysisModel, GcModel, LocationsModel, ParseFullModel, TrackersModel |
| parser/src/directives.rs | 409 / 508 | ConfigModel |
| parser/src/file_locations.rs | 93 / 112 | BuilderModel, LocationsModel |
| parser/src/lib.rs | 6 / 60 | LocationsModel |
| parser/src/multi_bindings.rs | 12 / 65 | LocationsModel |
| parser/src/path.rs | 25 / 49 | ConfigModel, ParseBindgenModel |
| parser/src/subclass_attrs.rs | 34 / 48 | ParseFileModel |
| src/lib.rs | 162 / 294 | CtypeModel, IncludeMacroModel |
| src/reference_wrapper.rs | 167 / 273 | RefWrapperModel |
| src/rvalue_param.rs | 55 / 68 | ValueParamModel |
| src/subclass.rs | 115 / 165 | SubclassRtModel |
| src/value_param.rs | 138 / 154 | ValueParamModel |
| tools/mdbook-preprocessor/src/main.rs | 236 / 331 | MdBookModel |
| tools/reduce/src/main.rs | 479 / 535 | ReduceModel |

Not modelled at all: `build.rs`, `engine/src/conversion/analysis/doc_label.rs`, `engine/src/conversion/analysis/mod.rs`, `engine/src/conversion/doc_attr.rs`, `engine/src/conversion/parse/mod.rs`, `engine/src/minisyn.rs`, `engine/src/rust_pretty_printer.rs`, `tools/stress-test/build.rs`, `tools/stress-test/src/main.rs`, and the tests, examples and demonstrations.
