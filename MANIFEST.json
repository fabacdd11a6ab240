{"claims": [
  {"property": "C01", "status": "proved", "theorems": ["c01_one_api_per_name", "c01_drained_collection_index_stale"], "note": "For every operation history. The collection drained by append is the exception: its index is stale, as stated by the second theorem; no caller reuses one."},
  {"property": "C02", "status": "proved", "theorems": ["c02_no_name_vanishes", "c02_clash_leaves_duplicate_marker", "c02_ignored_stays_ignored", "c02_push_leaves_other_names_alone", "c02_exact_outcome"], "note": "All pushes onto any reachable collection; c02_exact_outcome says which item every name ends up holding, for every list."},
  {"property": "C03", "status": "proved", "theorems": ["c03_dependencies_first"], "note": "Any item type, any dependency relation, distinct names."},
  {"property": "C04", "status": "proved", "theorems": ["c04_terminates_panics_exactly_on_cycles", "c04_for_every_api_collection", "c04_duplicate_names_refuted"], "note": "Distinct names are guaranteed by C01; without them the traversal can panic on an acyclic input (refuted theorem)."},
  {"property": "C05", "status": "proved", "theorems": ["c05_keeps_exactly_reachable", "c05_every_collection"], "note": "Allowlist predicate and C++ name rendering are parameters."},
  {"property": "C06", "status": "proved", "theorems": ["c06_output_closed_under_dependencies", "c06_always_terminates"], "note": "Termination for arbitrary lists, closure for distinct names."},
  {"property": "C07", "status": "partial", "theorems": ["c07_no_ignored_dependency_partial", "c07_closed_input", "c07_unknown_dependency_chain_refuted", "c07_subclass_holder_refuted"], "note": "The full claim is false of the code (two refutations); the partial theorem says exactly which dependencies can dangle."},
  {"property": "C08", "status": "proved", "theorems": ["c08_loses_no_name_and_terminates", "c08_reason_reported"], "note": "Any API list with distinct names; the reason attached to each dropped item is also characterised."},
  {"property": "C09", "status": "proved", "theorems": ["c09_exactly_the_bad_are_ignored", "c09_survivors_legal_and_unambiguous", "c09_panics_only_on_non_identifiers", "c09_unchecked_names_refuted"], "note": "Every API list. Kinds the checker deliberately skips (Rust types, extern types, concrete types...) may keep names cxx rejects; c09_unchecked_names_refuted exhibits one. Lexer validity and cxx's reserved-word list are parameters."},
  {"property": "C10", "status": "partial", "theorems": ["c10_exact_names", "c10_overload_names_unique_partial", "c10_overload_names_unique_refuted"], "note": "False in general: f, f, f1 gives f1 twice. Proved exactly when the requested names do not themselves end in an overload number, and the exact name of every request is characterised."},
  {"property": "C100", "status": "proved", "theorems": ["c100_equal", "c100_hash", "c100_one_each", "c100_as_listed"], "note": "Keys are compared by the text of their tokens. That an entry of a hash map is found exactly if hash and key are equal is the standard library's. c100_as_listed ties this to the output of C41."},
  {"property": "C101", "status": "proved", "theorems": ["c101_wrapped", "c101_distinct"], "note": "For every qualified name; the table of built-in types is finite and checked entry by entry. Which C type each type of std::os::raw stands for is taken from Rust's documentation."},
  {"property": "C102", "status": "partial", "theorems": ["c102_same", "c102_directives", "c102_undocumented", "c102_undocumented_refuted", "c102_order_refuted", "c102_hash_refuted"], "note": "The tokens handed on are those read whenever both accept them, and every known directive but two is accepted after the headers. Refuted: extern_rust_function and parse_only are accepted by the build script and refused by the macro; so is a header after a directive; and #generate is taken for #include by the macro only."},
  {"property": "C11", "status": "partial", "theorems": ["c11_bridge_names_unique_partial", "c11_never_new", "c11_names_derived_from_request", "c11_bridge_names_unique_refuted", "c11_method_name_refuted"], "note": "False in general: two requests for do and one for do_autocxx1 collide. Proved for requests that cannot spell a generated suffix; never-new holds for all histories."},
  {"property": "C12", "status": "partial", "theorems": ["c12_wrapper_names_unique_partial", "c12_wrapper_names_unique_refuted", "c12_wrapper_differs_from_plain", "c12_wrapper_differs_from_make_string", "c12_wrappers_of_different_blocks"], "note": "False in general: foo and foo_ share a wrapper. Proved for bridge names that do not differ only by a trailing underscore."},
  {"property": "C13", "status": "partial", "theorems": ["c13_alloc_free_determine_type", "c13_alloc_free_distinct_across_collection", "c13_subclass_names_determine_subclass", "c13_superclass_traits_determine_superclass", "c13_trait_items_partial", "c13_overrides_partial", "c13_cast_names_partial", "c13_remove_ownership_clash_refuted", "c13_trait_items_refuted", "c13_overrides_refuted", "c13_cast_to_same_named_bases_refuted", "c13_cast_separator_refuted"], "note": "Allocation, deallocation, holder, peer, ownership-removal and superclass trait names are injective for all names. Names joined with an underscore (trait items, overrides) and cast names are injective only under the stated side conditions; outside them concrete clashes are proved."},
  {"property": "C14", "status": "partial", "theorems": ["c14_fields_of_pod_are_pod_partial", "c14_pod_all_the_way_down_partial", "c14_typedef_refuted", "c14_array_refuted", "c14_opaque_refuted"], "note": "Proved for all definition lists in which no typedef names an unmovable built-in type and no built-in name is redeclared. Array fields are not followed by the code, typedefs of std::string are, and structs bindgen could not describe count as POD: each is refuted by a concrete input."},
  {"property": "C15", "status": "partial", "theorems": ["c15_forbidden_never_accepted_partial", "c15_forbidden_is_an_error_partial", "c15_accepted_requests_are_pod_partial", "c15_refusal_has_a_reason", "c15_typedef_request_refuted"], "note": "Same hypotheses as C14; requesting a typedef of std::string is accepted silently (refuted). Also proved: every refusal has a reason, among them the order of declarations."},
  {"property": "C16", "status": "proved", "theorems": ["c16_terminates", "c16_pod_only_if_needed"], "note": "No hypotheses on the inputs."},
  {"property": "C17", "status": "partial", "theorems": ["c17_default_and_destructor_partial", "c17_copy_partial", "c17_move_partial", "c17_public_members_partial", "c17_nonconst_copy_refuted", "c17_nonconst_copy_move_refuted", "c17_move_assignment_refuted", "c17_wrapped_references_refuted", "c17_member_destructor_refuted", "c17_unknown_destructor_refuted"], "note": "Proved against an inductive statement of the C++ rules (CxxClassSpec.v) for every class hierarchy. The full statement is false: refuted for classes declaring T(T&), for a declared move assignment operator, under wrapped references, for members with inaccessible destructors (move), and for classes with unknown parts (destructor). Left out of the C++ side: const members, defaulted members, default member initialisers, virtual bases."},
  {"property": "C18", "status": "proved", "theorems": ["c18_parts_offer_it", "c18_known_parts_destructible", "c18_unknown_parts_destructor_only"], "note": "Members' destructors are not consulted for moves, as the statement of c18_parts_offer_it says; the consequence is c17_member_destructor_refuted."},
  {"property": "C19", "status": "partial", "theorems": ["c19_marked_iff_abstract_partial", "c19_no_constructors_partial", "c19_opaque_refuted", "c19_opaque_base_refuted"], "note": "Marked iff a pure virtual function is left un-overridden (C++ rule by signature), for classes that are not opaque and whose opaque bases are roots; no constructor of a marked class is left. False for opaque classes (two refutations). Virtual inheritance, pure virtual destructors and signatures differing only by reference kind are not represented."},
  {"property": "C20", "status": "proved", "theorems": ["c20_resolution_correct", "c20_recursive_exactly_when_cyclic", "c20_order_independent", "resolve_correct"], "note": "Resolution through any typedef map terminates, yields the end of the chain, and reports recursion exactly for cyclic chains."},
  {"property": "C21", "status": "partial", "theorems": ["c21_one_name_per_instantiation_partial", "c21_start_condition_kept", "c21_names_acceptable_to_cxx", "c21_user_name_clash_refuted", "c21_value_arguments_refuted"], "note": "Proved for instantiations with type arguments when no user-chosen name has the form the fallback counter produces; both restrictions are needed, as the refutations show."},
  {"property": "C22", "status": "partial", "theorems": ["c22_lookup_is_by_spelling", "c22_spellings_disjoint", "c22_lookups_never_panic", "c22_pod_facts_never_panic", "c22_facts_agree", "c22_copy_facts_partial", "c22_copy_facts_refuted", "c22_pod_safe_copy_refuted", "c22_ctype_pod_refuted"], "note": "Lookup, aliasing, disjoint spellings and panic freedom proved for the whole table and all strings; three of the expected fact agreements are false and refuted."},
  {"property": "C23", "status": "proved", "theorems": ["c23_cpp_name_roundtrip", "c23_builtin_roundtrip", "c23_cpp_names_distinct", "c23_display_roundtrip", "c23_segments_inverse", "c23_parse_never_panics", "c23_builtin_name_refuted", "c23_single_colon_refuted"], "note": "User-defined names whose segments contain no colon; built-ins round-trip up to their canonical spelling."},
  {"property": "C24", "status": "proved", "theorems": ["c24_never_callable", "c24_supported_kept", "c24_problem_functions_discarded"], "note": "Every C++ function with one of 14 faults gets no bridge function, wrapper or re-export; a public function without fault is kept; and functions marked as problematic are replaced by an error. analyze_foreign_fn and gen_function are modelled in full."},
  {"property": "C25", "status": "partial", "theorems": ["c25_pointer_unsafe", "c25_bridge_pointer_unsafe", "c25_default_policy_unsafe", "c25_pointer_behind_reference_refuted"], "note": "Proved for all functions, with casts and destructors assumed to take only 'this' (which is all autocxx synthesises). Under the default policy trait methods are excepted. Finding: a reference to a raw pointer is not seen as a raw pointer."},
  {"property": "C26", "status": "partial", "theorems": ["c26_one_origin", "c26_one_origin_kept", "c26_typedef_reference_refuted"], "note": "Proved for every function declared to return an lvalue reference (constructors and special members excepted: they return nothing) and conversely. Refuted for a reference return type hidden behind a typedef."},
  {"property": "C27", "status": "proved", "theorems": ["c27_statements_guarded", "c27_order_kept", "c27_wrapper_guarded", "c27_statements_lean", "c27_wrapper_lean", "c27_blocks_are_transparent"], "note": "For every list of statements and every generated wrapper. Needless or nested unsafe blocks are excluded for wrappers whose result conversion does not come with a placement destination (predicate simple_result)."},
  {"property": "C28", "status": "partial", "theorems": ["c28_declared", "c28_shared", "c28_tied", "c28_wrapped_result_refuted"], "note": "Proved for every signature whose input types do not already mention 'a. Sharing and tying are proved for references, pinned references and impl types; they fail for CppLtRef results, whose lifetime no parameter carries."},
  {"property": "C29", "status": "proved", "theorems": ["c29_allowlist_is_what_was_asked", "c29_mixing_refused", "c29_conflict_exactly_when_mixed"], "note": "Over every token stream of directives."},
  {"property": "C30", "status": "partial", "theorems": ["c30_named_is_listed", "c30_only_named_partial", "c30_exact_without_namespaces", "c30_namespace_prefix_refuted", "c30_no_panic", "c30_bindgen_names_listed", "c30_pod_alone_not_listed"], "note": "Everything named is listed. The converse holds up to textual prefix: generate_ns!(\"foo\") also lists foobar::X (refuted)."},
  {"property": "C31", "status": "partial", "theorems": ["c31_round_trip", "c31_print_stable", "c31_same_decisions", "c31_rust_type_path_refuted", "c31_receiver_refuted", "c31_order_refuted"], "note": "Proved for every configuration a macro can produce. Refuted for configurations extended by discovery of Rust code: multi-segment extern_rust_type paths do not parse, receivers are lost; and the hash-carrying value may change."},
  {"property": "C32", "status": "partial", "theorems": ["c32_success_iff", "c32_conflicts_reported_partial", "c32_error_is_a_conflict", "c32_identical_accepted", "c32_stale_file_refuted", "c32_first_content_lost_refuted"], "note": "Exact condition for success is proved. Conflicts are always reported in a directory without the files; refuted when the first content is already on disk, because a skipped write is not recorded."},
  {"property": "C33", "status": "proved", "theorems": ["c33_exactly_n", "c33_too_many_fails", "c33_room_succeeds", "c33_extension_h_refuted"], "note": "For extensions other than h and include.rs, which collide with other outputs."},
  {"property": "C34", "status": "partial", "theorems": ["c34_read_back", "c34_every_file_is_an_output", "c34_space_refuted"], "note": "Read back by an independent reader of make rules for paths free of blanks, colons, backslashes and line breaks; refuted for others, as nothing is escaped."},
  {"property": "C35", "status": "partial", "theorems": ["c35_custom_directory", "c35_out_dir", "c35_file_custom_directory", "c35_file_out_dir", "c35_same_autocxx_rs_refuted", "c35_relative_directory_refuted"], "note": "Holds from source file to compiler for an absolute custom directory and for OUT_DIR. Refuted when AUTOCXX_RS is set for both processes and for relative custom directories."},
  {"property": "C36", "status": "partial", "theorems": ["c36_last_content", "c36_rerun_touches_nothing", "c36_rerun_fails_refuted", "c36_builder_last_content", "c36_builder_rebuild_touches_nothing", "c36_build_script_rebuild"], "note": "Holds when the contents asked for under each name agree; otherwise refuted."},
  {"property": "C37", "status": "partial", "theorems": ["c37_last_with_hash", "c37_exact_without_collisions", "c37_macro_finds_partial", "c37_macro_finds_refuted"], "note": "Lookups are exact when hashes do not collide. The macro finds the code of blocks which the generator does not change; refuted for blocks whose allowlist is completed before hashing."},
  {"property": "C38", "status": "proved", "theorems": ["c38_every_block_once", "c38_names_distinct", "c38_repeated_names", "c38_files_distinct"], "note": "Every block and bridge at any depth, once and in order; names of all generated blocks differ or the error is reported; the Rust files differ."},
  {"property": "C39", "status": "partial", "theorems": ["c39_complete_partial", "c39_nested_refuted"], "note": "Holds for blocks outside modules and for blocks which name something to generate; a block in a module which does not is never completed and makes the generator panic."},
  {"property": "C40", "status": "proved", "theorems": ["c40_header_names", "c40_tool_names_distinct", "c40_builder_names_distinct", "c40_two_files_refuted"], "note": "Modules must be different over all files; the code checks it only within each file, which c40_two_files_refuted shows to matter."},
  {"property": "C41", "status": "proved", "theorems": ["c41_entries_are_the_namespace", "c41_each_item_once", "c41_modules", "c41_one_module_per_path", "c41_is_empty", "c41_output_module", "c41_output_has_module", "c41_output_order_refuted"], "note": "Every item lands once, in order, in the module of its namespace. Finding: the order of the impl blocks in the generated code comes from iterating a HashMap and is not determined by the input."},
  {"property": "C42", "status": "partial", "theorems": ["c42_faults_classified", "c42_polite_is_safe_partial", "c42_rust_owned_no_leak", "c42_cpp_owned_no_leak", "c42_alive", "c42_self_owned_lives", "c42_self_owned_deleted", "c42_destroyed_in_upcall_refuted", "c42_cpp_removes_ownership_refuted", "c42_moved_out_refuted"], "note": "Every history: memory is misused only in the listed situations, nothing is destroyed twice, nothing leaks. The unconditional claim is false: three histories use a destroyed peer."},
  {"property": "C43", "status": "proved", "theorems": ["c43_never_aliased", "c43_upcall_outcome"], "note": "Every history that does not move the Rust object out of its cell."},
  {"property": "C44", "status": "partial", "theorems": ["c44_exactly_once", "c44_call", "c44_sources", "c44_constructor_panic_refuted", "c44_populate_twice_leaks"], "note": "Proved for every list of arguments of all kinds, including panics on null pointers; refuted when a constructor given to as_new panics: dropping the handler destroys an object that was never constructed."},
  {"property": "C45", "status": "partial", "theorems": ["c45_same_object", "c45_different_objects", "c45_one_owner", "c45_assignment_refuted", "c45_null_reference_refuted"], "note": "Same object proved for every sequence of conversions and moves without assignment through DerefMut, one owner for every sequence; refuted for that assignment (CppPin) and for null UniquePtr."},
  {"property": "C46", "status": "proved", "theorems": ["c46_item_error_isolated", "c46_error_isolated", "c46_other_kinds_unchanged", "c46_outputs_collected", "c46_report_any_error"], "note": "Closures may carry state; isolation is stated relative to the state they thread."},
  {"property": "C47", "status": "partial", "theorems": ["c47_marker_removed", "c47_other_names_kept", "c47_marker_inside_refuted", "c47_facts_found", "c47_facts_of_that_name_only", "c47_panics_without_root", "c47_overloads_confused_refuted", "c47_public_report_ignored_refuted"], "note": "Proved for every sequence of callbacks in which no two items of a module have the same recorded name; refuted without that: an overloaded foo beside a function foo1 are confused. The qualified name is the one bindgen reports, after removal of the marker. A later report that an item is public does not undo an earlier one."},
  {"property": "C48", "status": "partial", "theorems": ["c48_found_iff", "c48_uses_found_partial", "c48_nothing_else", "c48_missed_refuted", "c48_variable_refuted"], "note": "Found exactly in the places visited; a full list of places where uses are found; 24 places where uses are missed and the empty entry for a variable named ffi are refutations of the full claim."},
  {"property": "C49", "status": "partial", "theorems": ["c49_inverse", "c49_override_typed", "c49_super_typed", "c49_rust_sees_what_cpp_passes", "c49_reference_refuted", "c49_rvalue_refuted", "c49_move_panics_refuted", "c49_unique_ptr_moved", "c49_move_only_refuted", "c49_super_move_only_refuted"], "note": "Overriding methods and superclass calls type-check and match the method overridden for parameters passed unchanged or through unique_ptr, copyable when by value. False of the code for wrapped references, rvalue references, std::unique_ptr parameters (panic) and move-only classes: refutations proved."},
  {"property": "C50", "status": "partial", "theorems": ["c50_spelling_correct_partial", "c50_spelling_unambiguous", "c50_different_types_different_spellings", "c50_unsupported_rejected", "c50_nested_names", "c50_reference_to_pointer_refuted", "c50_value_argument_dropped_refuted"], "note": "Faithful spelling proved for types without a const reference to a pointer and without non-type arguments; the refutations show both are misprinted."},
  {"property": "C51", "status": "partial", "theorems": ["c51_success_means_found", "c51_failure_names_the_directive", "c51_nested_refuted", "c51_ignored_item_counts_refuted", "c51_namespace_unchecked_refuted"], "note": "Success means each directive matched the qualified name of an API before externs are replaced; failure names the first unmatched directive. Refuted parts: a nested class named by its C++ name is reported missing, an ignored item counts as a match, generate_ns! is never checked."},
  {"property": "C52", "status": "partial", "theorems": ["c52_blocked_types_refused", "c52_template_argument_refuted", "c52_blocked_types_dropped_partial", "c52_other_kinds_refuted", "c52_nested_refuted"], "note": "Blocked structs and enums are not parsed and type conversion refuses them. Refuted parts: template arguments, typedefs/constants/functions, nested types by C++ name."},
  {"property": "C53", "status": "proved", "theorems": ["c53_nothing_after_generation", "c53_output_of_this_configuration", "c53_cpp_of_this_configuration", "c53_parse_only", "c53_other_calls_panic", "c53_failure_changes_nothing", "c53_parse_only_build_refuted"], "note": "All call sequences, from any fresh block; bindgen, the conversion and cxx's generator are parameters. Finding: a parse_only! block panics in a build, because include_dirs and generate_h_and_cxx panic on it."},
  {"property": "C54", "status": "partial", "theorems": ["c54_exactly_system_includes", "c54_carriage_returns", "c54_off", "c54_idempotent_partial", "c54_idempotent_refuted", "c54_other_text_kept_refuted"], "note": "Exactly the system includes are removed from texts of lines without carriage returns, and a carriage return before a newline changes nothing; the final newline is lost. Idempotence fails when the kept text ends with an empty line, and carriage returns are dropped."},
  {"property": "C55", "status": "proved", "theorems": ["c55_peer_constructor", "c55_subclass_constructors", "c55_constructor_name_refuted"], "note": "Exact characterisation of when CppPeerConstructor is generated; every subclass constructor comes from a superclass constructor. Refuted: make_peer may call SCpp::new although only new1 exists."},
  {"property": "C56", "status": "proved", "theorems": ["c56_exactly_one", "c56_others_unchanged"], "note": ""},
  {"property": "C57", "status": "partial", "theorems": ["c57_accepted_exactly", "c57_deps_exact", "c57_every_type_recorded", "c57_bad_signatures_rejected_partial", "c57_output_namespace_refuted", "c57_panics_only_on_module_names"], "note": "The accepted signatures and recorded dependencies are characterised exactly; the rejection of namespaces excludes paths through root:: and output::, which the refutation shows are accepted."},
  {"property": "C58", "status": "partial", "theorems": ["c58_unique_names", "c58_reachable", "c58_no_ignored_dependency_partial", "c58_panics_only", "c58_listed_items_present", "c58_unknown_type_refuted", "c58_unnameable_method_unreported_refuted"], "note": "Unique names, reachability, termination and presence of everything listed are proved for every run. Freedom from ignored dependencies is proved when every type mentioned exists as an item or is built in; it is refuted otherwise. A method of a listed class whose name is unusable vanishes without a report (refuted)."},
  {"property": "C59", "status": "partial", "theorems": ["c59_only_namespaces_removed", "c59_idempotent", "c59_identifies_only_namespaces", "c59_injective_when_names_unique", "c59_no_namespace_left_partial", "c59_array_element_refuted", "c59_signature"], "note": "Structure is kept, idempotence and injectivity up to namespaces hold for every type; that no namespace is left is proved for types without arrays and refuted for array elements."},
  {"property": "C60", "status": "partial", "theorems": ["c60_kind_describes_type", "c60_pointers_reported", "c60_declarators_kept", "c60_pointer_typedefs_reported", "c60_reference_typedef_refuted", "c60_rvalue_typedef_refuted"], "note": "Proved for every type, environment and state. The claim fails for typedefs of references: a typedef of a const reference converts to a reference whose kind is Regular, and a typedef of an rvalue reference is reported as a plain pointer."},
  {"property": "C61", "status": "proved", "theorems": ["c61_dependencies_complete", "c61_named_type_recorded"], "note": "For every type, state and typedef map without duplicate names."},
  {"property": "C62", "status": "partial", "theorems": ["c62_no_forward_declaration_by_value", "c62_array_elements_refuted"], "note": "Proved for paths and containers; arrays of forward-declared types are accepted."},
  {"property": "C63", "status": "partial", "theorems": ["c63_instantiations_registered_partial", "c63_instantiation_in_container_refuted"], "note": "Names never change and every API made is registered; completeness holds only if the result contains no container, because APIs made while converting container arguments are dropped."},
  {"property": "C64", "status": "partial", "theorems": ["c64_conversion_ends_partial", "c64_outcome_independent_of_depth", "c64_self_containing_typedef_refuted"], "note": "Ends whenever no typedef is mentioned in the arguments of what it stands for; a typedef standing for a vector of itself (impossible in C++) diverges."},
  {"property": "C65", "status": "proved", "theorems": ["c65_kind", "c65_bad_pod_refused", "c65_fields_recorded", "c65_bases"], "note": "The type converter is an arbitrary function here; C60 to C64 are about it."},
  {"property": "C66", "status": "partial", "theorems": ["c66_wrapper_passes_arguments", "c66_capture_refuted"], "note": "Proved by symbolic evaluation of the generated code for every wrapper whose parameter names avoid the generator's variables; refuted without that condition (a C++ parameter called space0)."},
  {"property": "C67", "status": "proved", "theorems": ["c67_wrapper_typed", "c67_arguments_in_order", "c67_call_on_receiver", "c67_allocators_included", "c67_superclass_arguments"], "note": "Typing is for calls of functions, static methods, methods and constructors; order also for destructors and casts; superclass constructors take all parameters but the holder."},
  {"property": "C68", "status": "proved", "theorems": ["c68_every_item_represented", "c68_nothing_invented", "c68_no_panic"], "note": ""},
  {"property": "C69", "status": "proved", "theorems": ["c69_receivers", "c69_methods_have_receivers"], "note": ""},
  {"property": "C70", "status": "proved", "theorems": ["c70_functions", "c70_types", "c70_failure", "c70_associated_function_refuted"], "note": "Exact characterisation of what is recorded and of failure, relative to the places which the search enters (see C48). An associated function without receiver is recorded as a method."},
  {"property": "C71", "status": "partial", "theorems": ["c71_receiver_partial", "c71_pin_refuted"], "note": "True for self, &self and &mut self; false for self: Pin<&mut Self>."},
  {"property": "C72", "status": "partial", "theorems": ["c72_discoveries_go_to_one_block", "c72_one_top_level_block", "c72_added_block_clashes_refuted", "c72_parse_only_refuted"], "note": "What is added to which block is exact. The last sentence is refuted: the added block clashes with an unnamed block in a module, and a parse_only! block panics."},
  {"property": "C73", "status": "partial", "theorems": ["c73_module_names", "c73_module_names_refuted"], "note": "Proved for namespaces not called like one of autocxx's own names; a namespace called output, bindgen, cxxbridge or root defines a name twice."},
  {"property": "C74", "status": "partial", "theorems": ["c74_supers_implemented", "c74_impl_has_trait", "c74_default_bodies", "c74_upcalls_have_methods", "c74_impls_pass_parameters", "c74_super_functions", "c74_overrides_methods", "c74_override_parameters_refuted", "c74_trait_item_names_refuted", "c74_super_names_refuted", "c74_super_function_missing_refuted"], "note": "Proved where trait item names differ; four refutations: unsupported parameter of a pure virtual method, clashing trait item names, a method named m_super, and a super function that was ignored."},
  {"property": "C75", "status": "proved", "theorems": ["c75_constructor_dependencies", "c75_management_kept"], "note": "Dependencies characterised exactly; keeping is proved for lists in which every type mentioned exists."},
  {"property": "C76", "status": "partial", "theorems": ["c76_ctypes_declared", "c76_clash_refuted"], "note": "Proved unless an API already has the name of the declaration in the root namespace; refuted then: a class called c_int is lost."},
  {"property": "C77", "status": "proved", "theorems": ["c77_policy_is_what_was_said", "c77_safe_only_if_said", "c77_misspelt_refused"], "note": "For every token sequence the parser accepts."},
  {"property": "C78", "status": "partial", "theorems": ["c78_targets_usable_partial", "c78_never_itself", "c78_opaque_only_if_hopeless", "c78_forward_errors_kept", "c78_nested_refuted", "c78_use_refuted"], "note": "Proved for the composition of the passes. Not true, and refuted: for a nested typedef refused by the same pass, and for use items, whose dependencies are not recorded. Names which autocxx makes up are excluded."},
  {"property": "C79", "status": "partial", "theorems": ["c79_nothing_lost_partial", "c79_nothing_invented", "c79_list_is_collection"], "note": "Parsed items whose name is one that autocxx makes up are not covered: they can clash (C81)."},
  {"property": "C80", "status": "partial", "theorems": ["c80_casts_to_bases_partial", "c80_only_to_bases"], "note": "The cast can be replaced by an ignored item when its name clashes (c13_cast_to_same_named_bases_refuted); names that end like those of allocation functions are excluded."},
  {"property": "C81", "status": "partial", "theorems": ["c81_alloc_and_free_partial", "c81_only_for_stored_types", "c81_pairing_refuted"], "note": "A C++ function with the name of one of the two leaves the other unpaired (refuted)."},
  {"property": "C82", "status": "proved", "theorems": ["c82_account", "c82_result"], "note": "analyze_functions with its fixed sets, the special members, the subclass constructors and the concrete types is modelled on the APIs the earlier phases make."},
  {"property": "C83", "status": "partial", "theorems": ["c83_members_added_once", "c83_member_kinds", "c83_reserved_class_name_refuted"], "note": "False for the default constructor of a nested class whose name Rust reserves (c83_reserved_class_name_refuted); proved for all others, for a hash not ending in an underscore."},
  {"property": "C84", "status": "partial", "theorems": ["c84_signatures_partial", "c84_dangling_refuted"], "note": "False for a type reached through a typedef which was itself refused (c84_dangling_refuted); the theorem allows for exactly that."},
  {"property": "C85", "status": "partial", "theorems": ["c85_listed_items_partial", "c85_listed_methods_partial", "c85_listed_functions_partial", "c85_silent_refuted"], "note": "Proved for items which are not functions, for methods of listed classes which are not templates and are in the method's namespace, and for free functions which neither an overload number nor a wrapper renames. The full statement is false: c85_silent_refuted is a listed function which disappears without an error, because its error is filed under the name of its wrapper."},
  {"property": "C86", "status": "partial", "theorems": ["c86_header", "c86_source", "c86_total", "c86_nothing", "c86_bridge_partial", "c86_conversion", "c86_cxx_h_refuted", "c86_class_missing_refuted", "c86_no_header_refuted", "c86_nested_superclass_refuted"], "note": "The text of header and source is proved for all API lists. Refuted: cxx.h is not included for a subclass with exclude_utilities and no POD types; a refused subclass leaves functions on a class that is not written; only an orphan override makes the bridge expect a header that is not there; the class of a subclass of a nested class has a base class that does not exist."},
  {"property": "C87", "status": "partial", "theorems": ["c87_called_partial", "c87_result_partial", "c87_numbered_method_refuted"], "note": "What is called is what is meant, for each function the analysis keeps. Missing: names which mislead the recognition of constructors are excluded by hypothesis; for a method called like its class with a number behind the claim is refuted. A free function for which bindgen reports no C++ name must not have been renamed as an overload."},
  {"property": "C88", "status": "partial", "theorems": ["c88_bridge_types", "c88_bridge_impls", "c88_subclass_helpers", "c88_paths", "c88_impl_blocks_partial", "c88_refused_subclass_refuted"], "note": "Proved of the whole list of APIs and of whole conversions. The claim about impl blocks is partial: with a Rust subclass whose superclass is refused it is false (c88_refused_subclass_refuted), and blocks holding only error entries are left out. Types named in signatures are C84's; documentation, lints and the text of the generated items are not modelled."},
  {"property": "C89", "status": "partial", "theorems": ["c89_types_partial", "c89_typedefs_partial", "c89_typedef_refuted", "c89_override_refuted"], "note": "Partial: kept items that are no type of their own (typedefs within pointer typedefs, templates), types of lost subclasses, items broken as in C84 and C types whose name is taken are excluded; c89_typedef_refuted shows a typedef within a pointer typedef left undeclared. For signatures in the extern Rust block the claim is false: c89_override_refuted shows an overriding function which names a refused class."},
  {"property": "C90", "status": "partial", "theorems": ["c90_same_apis", "c90_contents", "c90_well_formed", "c90_attributes", "c90_settings", "c90_functions", "c90_paths", "c90_types_partial", "c90_known_name_refuted"], "note": "Parsing with contents is composed with every later phase up to the generated Rust. Partial because the types of signatures (c90_types_partial) inherit the exceptions of C89 and need that no declared type has a built-in name; c90_known_name_refuted shows a class named Pin is dropped without an error while functions taking it are kept."},
  {"property": "C91", "status": "partial", "theorems": ["c91_present_partial", "c91_implementations", "c91_default_peer", "c91_definitions", "c91_functions", "c91_listed_partial", "c91_abstract_template_refuted"], "note": "Presence is proved for every item but templates which are abstract; c91_abstract_template_refuted exhibits one, derived from an abstract class, for which nothing is generated and no error says so. Functions which are not public have no place by design. What a trait method is called is not modelled."},
  {"property": "C92", "status": "partial", "theorems": ["c92_function_partial", "c92_generated_partial", "c92_converted_partial", "c92_pin_refuted"], "note": "Partial: constructors and destructors are assumed to be as C++ has them, the methods offered to subclasses to have their receiver, and nothing kept to depend on a type with a name of Rust's Pin. The last assumption is needed: c92_pin_refuted is a run on valid C++ which panics."},
  {"property": "C93", "status": "partial", "theorems": ["c93_lines", "c93_chapter", "c93_book", "c93_extract", "c93_hexathorpes", "c93_unescape_partial", "c93_backslash_refuted", "c93_unclosed_refuted"], "note": "Partial: the C++ code is the value of its literal only if quotes are all that is escaped (c93_backslash_refuted), and an unclosed example is dropped (c93_unclosed_refuted); positions are in bytes, so that text beyond ASCII is not covered."},
  {"property": "C94", "status": "partial", "theorems": ["c94_asked", "c94_preprocessed", "c94_define_refuted", "c94_resume", "c94_suppressions", "c94_repro", "c94_repro_empty", "c94_repro_refuted", "c94_discovered_refuted", "c94_same_command", "c94_script", "c94_rustc", "c94_blank_refuted", "c94_seen", "c94_named_refuted", "c94_run"], "note": "What is asked for, the commands, the script and the order of the run are proved as stated, for arguments which bash takes as they are. Refuted: macro definitions reach clang without -D; arguments with blanks are split by the script; bindings of a named macro are never looked at; the case of a macro which names nothing to generate ends the tool in a panic; the case of a macro in a file with a Rust type exported from a module is refused. Processes and bash are modelled by what they are given and by the rules of && and grep."},
  {"property": "C95", "status": "partial", "theorems": ["c95_options", "c95_requests", "c95_includes", "c95_compiled", "c95_listed", "c95_bindings", "c95_rust_files", "c95_no_macros", "c95_bridge_only", "c95_bridge_only_refuted", "c95_parse_only_refuted"], "note": "The include directories do not reach the C++ compiler when the file has only cxx::bridge modules (c95_bridge_only, c95_bridge_only_refuted), and a parse_only! block ends the build in a panic (c95_parse_only_refuted). Writing files and the compiler itself are outside the model."},
  {"property": "C96", "status": "proved", "theorems": ["c96_cargo", "c96_failure", "c96_depfile"], "note": "That bindgen calls back for every file it reads is outside the model."},
  {"property": "C97", "status": "partial", "theorems": ["c97_unchanged", "c97_types", "c97_functions", "c97_methods", "c97_refused", "c97_function_as_type_refuted", "c97_trait_refuted"], "note": "False of a function marked as a type and of a method of a trait, which the compiler accepts but the engine silently leaves out (c97_function_as_type_refuted, c97_trait_refuted)."},
  {"property": "C98", "status": "partial", "theorems": ["c98_alone", "c98_guarded", "c98_twice", "c98_second_block", "c98_balanced", "c98_two_blocks_refuted"], "note": "The first two halves hold for every header whose conditional groups are closed, and c98_balanced says that they are if the user's inclusions and the written types and declarations close theirs. The last is false: all headers have the guard __AUTOCXXGEN_H__, so of the headers of two blocks the one read second is lost (c98_second_block for all pairs, c98_two_blocks_refuted with a declaration which is lost)."},
  {"property": "C99", "status": "partial", "theorems": ["c99_input", "c99_written", "c99_panics", "c99_comment_ended_refuted"], "note": "Holds if the printed configuration does not end the comment around it and the headers close the comments they open. The first is not ensured: the configuration is printed unescaped (c99_comment_ended_refuted)."}
]}
