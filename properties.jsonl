{"id": "C01", "title": "One API per name", "statement": "However APIs are added to, removed from or merged into an API collection, it never holds two APIs with the same qualified name, and its membership index always lists exactly the names it holds.", "quantifier": "every finite sequence of push, append, extend, retain and collect operations on any APIs", "why_tests_cant": "The number of operation histories is unbounded; a unit test exercises a few literal sequences.", "anchors": ["engine/src/conversion/apivec.rs: ApiVec::push, append, extend, retain, from_iter"]}
{"id": "C02", "title": "No pushed API vanishes", "statement": "Every qualified name ever pushed into an API collection stays represented in it until explicitly removed: after a clash between two real items the name is still there, as an entry recording a duplicate, and a clash involving an ignored item never turns an ignored name back into a real one.", "quantifier": "every sequence of pushes onto any collection", "why_tests_cant": "Needs to hold for each of unboundedly many clash patterns and positions, including later clashes with the duplicate marker itself.", "anchors": ["engine/src/conversion/apivec.rs: ApiVec::push", "engine/src/conversion/api.rs: Api::discard_duplicates", "engine/src/conversion/convert_error.rs: DuplicateItemsFoundInParsing"]}
{"id": "C03", "title": "Dependencies come first", "statement": "Visiting APIs in fields-and-bases-first order yields every API exactly once and never yields an API before another API in the collection on which it depends by field or base class.", "quantifier": "every list of APIs with distinct names and every dependency relation for which the traversal completes", "why_tests_cant": "Quantifies over all graphs; tests cover a handful of shapes.", "anchors": ["engine/src/conversion/analysis/depth_first.rs: fields_and_bases_first, DepthFirstIter::next"]}
{"id": "C04", "title": "Traversal terminates; panics exactly on cycles", "statement": "The fields-and-bases-first traversal always finishes: it completes whenever the field/base dependency relation restricted to the collection is acyclic, and stops with the circular-dependency panic whenever it is cyclic.", "quantifier": "every list of APIs with distinct names and every finite dependency relation", "why_tests_cant": "Non-termination of a rotating queue cannot be excluded by running finitely many graphs.", "anchors": ["engine/src/conversion/analysis/depth_first.rs: DepthFirstIter::next"]}
{"id": "C05", "title": "Garbage collection keeps exactly what is reachable", "statement": "After allowlist filtering, an API is present in the output if and only if it is reachable, through dependencies, from an API whose name the user put on the allowlist; and it is present exactly as many times as it was in the input.", "quantifier": "every API list, dependency relation and allowlist", "why_tests_cant": "Reachability over arbitrary (also cyclic) graphs.", "anchors": ["engine/src/conversion/analysis/gc.rs: filter_apis_by_following_edges_from_allowlist"]}
{"id": "C06", "title": "Garbage collection is closed and always terminates", "statement": "The output of allowlist filtering is closed under dependencies (every dependency that existed in the input is still there) and the worklist empties after finitely many steps, even on cyclic graphs, duplicated names and dangling dependencies.", "quantifier": "every API list, dependency relation and allowlist", "why_tests_cant": "Termination over all graphs.", "anchors": ["engine/src/conversion/analysis/gc.rs: filter_apis_by_following_edges_from_allowlist"]}
{"id": "C07", "title": "No binding depends on an ignored or unknown item", "statement": "After dependency filtering no surviving API depends on an item that was ignored or on a type which is neither generated nor built in; so generated code never mentions a type that is not emitted.", "quantifier": "every API list, dependency relation and known-type predicate", "why_tests_cant": "A fixpoint over arbitrary dependency chains; the failing cases need chains of a particular order.", "anchors": ["engine/src/conversion/analysis/remove_ignored.rs: filter_apis_by_ignored_dependents, create_ignore_item"]}
{"id": "C08", "title": "Dependency filtering loses no name and terminates", "statement": "Dependency filtering always terminates; every name in its input is a name in its output; an item is replaced by an ignored marker only if it depends (transitively) on an ignored item or on an unknown type, and items untouched are unchanged.", "quantifier": "every API list and dependency relation", "why_tests_cant": "The loop re-runs until stable; number of iterations is unbounded.", "anchors": ["engine/src/conversion/analysis/remove_ignored.rs: filter_apis_by_ignored_dependents"]}
{"id": "C09", "title": "Names handed to cxx are legal and unambiguous", "statement": "After name checking, every surviving type, constant, enum, typedef or function has only identifiers cxx accepts in its name, no two surviving APIs ask cxx for the same bridge identifier, and every rejected API is still represented as an ignored item.", "quantifier": "every API list", "why_tests_cant": "All name multisets; duplicates may be spread anywhere.", "anchors": ["engine/src/conversion/analysis/name_check.rs: check_names", "engine/src/types.rs: validate_ident_ok_for_cxx"]}
{"id": "C10", "title": "Overload names are unique per type", "statement": "Within one type (or among free functions), the Rust method names chosen for C++ overloads are pairwise different.", "quantifier": "every sequence of method-name requests", "why_tests_cant": "Collision needs an adversarial C++ name such as f, f, f1; histories are unbounded.", "anchors": ["engine/src/conversion/analysis/fun/overload_tracker.rs: OverloadTracker::get_method_real_name, get_function_real_name"]}
{"id": "C11", "title": "Bridge names are unique", "statement": "The identifiers given to functions inside the single flat #[cxx::bridge] module are pairwise different across all types, namespaces and overloads, and are never the reserved word new.", "quantifier": "every sequence of (type, name, namespace) requests", "why_tests_cant": "Unbounded request histories with counter interaction.", "anchors": ["engine/src/conversion/analysis/fun/bridge_name_tracker.rs: BridgeNameTracker::get_unique_cxx_bridge_name, count_of"]}
{"id": "C12", "title": "C++ wrapper function names are unique", "statement": "The generated C++ wrapper for a function has a name different from the wrapper name of every other function in the same include_cpp! block.", "quantifier": "every pair of distinct bridge names and every configuration hash", "why_tests_cant": "All pairs of names, including ones ending in underscore.", "anchors": ["engine/src/conversion/analysis/fun/mod.rs: analyze_foreign_fn (joiner/autocxx_wrapper)", "parser/src/config.rs: uniquify_name_per_mod"]}
{"id": "C13", "title": "Synthesised names do not collide", "statement": "Names synthesised by autocxx (allocation and deallocation functions, subclass peers, holders and supers, casts between a class and its bases, concrete template instantiations) determine the item they were made from: two different sources never get the same synthesised name of one kind.", "quantifier": "all source names", "why_tests_cant": "Injectivity over all strings.", "anchors": ["engine/src/conversion/analysis/allocators.rs: get_alloc_name, get_free_name", "engine/src/conversion/api.rs: SubclassName", "engine/src/conversion/analysis/casts.rs: name_for_cast", "engine/src/conversion/analysis/fun/subclass.rs"]}
{"id": "C14", "title": "POD status is closed under fields", "statement": "A type is treated as plain old data (owned by value in Rust) only if every by-value field of it is also POD, all the way down; in particular no type marked POD contains a type known to be unsafe to move.", "quantifier": "every list of struct definitions, typedefs and POD requests for which analysis succeeds", "why_tests_cant": "Structural property over arbitrary nesting and order of declarations and requests.", "anchors": ["engine/src/conversion/analysis/pod/byvalue_checker.rs: ByValueChecker::satisfy_requests, ingest_struct, new_from_apis"]}
{"id": "C15", "title": "Unsafe types are never accepted as POD", "statement": "Requesting POD for a type with a vtable, for a non-movable known type such as std::string, or for any type containing one by value (directly, or nested), is an error; it never silently succeeds.", "quantifier": "every set of struct definitions and requests", "why_tests_cant": "All nesting depths and all aliases.", "anchors": ["engine/src/conversion/analysis/pod/byvalue_checker.rs: satisfy_requests, ingest_struct", "engine/src/known_types.rs: get_pod_safe_types"]}
{"id": "C16", "title": "POD analysis terminates and is minimal", "statement": "The POD worklist always terminates on the type database autocxx builds (also for self-referential structs), and marks as POD only what was requested or is contained by value in something requested.", "quantifier": "every definition set and request list", "why_tests_cant": "Termination and exact set of a worklist algorithm on arbitrary graphs.", "anchors": ["engine/src/conversion/analysis/pod/byvalue_checker.rs: satisfy_requests"]}
{"id": "C17", "title": "Implicit constructors follow the C++ rules", "statement": "autocxx synthesises an implicit default/copy/move constructor or destructor binding for a class only when the C++ standard says the class has one that is accessible: it never claims one which C++ defines as deleted, suppresses, or makes inaccessible.", "quantifier": "every class with any combination of explicitly declared special members, visibilities, bases and fields of any analysed kinds", "why_tests_cant": "The rule table has a combinatorial, recursively nested input space.", "anchors": ["engine/src/conversion/analysis/fun/implicit_constructors.rs: find_constructors_present, find_explicit_items"]}
{"id": "C18", "title": "Implicit-constructor propagation is sound for bases and fields", "statement": "If some base or field of a class has a special member that is deleted, inaccessible or unknown, then autocxx does not generate the corresponding implicit member for the class; and a type with an unknown field or base only gets what is explicitly declared (destructor excepted).", "quantifier": "every class and every assignment of special members to its bases and fields", "why_tests_cant": "All hierarchies of arbitrary depth.", "anchors": ["engine/src/conversion/analysis/fun/implicit_constructors.rs: find_constructors_present"]}
{"id": "C19", "title": "Abstract classes are detected and never constructed", "statement": "A class which, taking into account all its bases and overrides, still has an unimplemented pure virtual method is marked abstract, and no constructor binding of an abstract class survives; a class all of whose pure virtuals are overridden is not marked abstract because of them.", "quantifier": "every class hierarchy and set of virtual, pure virtual and overriding methods", "why_tests_cant": "Inheritance depth and override patterns are unbounded.", "anchors": ["engine/src/conversion/analysis/abstract_types.rs: mark_types_abstract, Signature"]}
{"id": "C20", "title": "Typedef resolution terminates", "statement": "Resolving a type name through typedefs always terminates; it returns the end of the typedef chain, and reports an infinitely-recursive-typedef error exactly when the chain is cyclic.", "quantifier": "every typedef map and every starting name", "why_tests_cant": "Termination over all maps, including cyclic ones.", "anchors": ["engine/src/conversion/analysis/type_converter.rs: TypeConverter::resolve_typedef"]}
{"id": "C21", "title": "Each template instantiation gets its own name", "statement": "Two different C++ template instantiations are never given the same synthesised concrete Rust type name, and the same instantiation always gets the same name.", "quantifier": "every sequence of requests for instantiations", "why_tests_cant": "Names derive from lossy sanitisation, so collisions depend on history.", "anchors": ["engine/src/conversion/analysis/type_converter.rs: get_templated_typename"]}
{"id": "C22", "title": "Built-in type table is self-consistent", "statement": "Looking up any spelling of a built-in type (Rust name, C++ name or alias) returns one entry; entries' facts agree with each other: the copy-constructor fact does not depend on which spelling is asked, a type safe as POD is not reported as lacking a copy constructor, ctypes are PODs, generic behaviour and permitted-in-vector/unique_ptr facts are consistent, and every alias resolves in one hop.", "quantifier": "every entry and every pair of entries of the built-in table", "why_tests_cant": "Needs all pairs; tests look at a few.", "anchors": ["engine/src/known_types.rs: TypeDatabase, create_type_database, get, insert"]}
{"id": "C23", "title": "Qualified names round-trip", "statement": "Converting a qualified name to its C++ spelling and parsing it back gives the same name; the segment iterator and constructor from segments are inverse; different qualified names have different C++ spellings.", "quantifier": "every qualified name whose segments are non-empty and contain no colon; injectivity and exact round-trip for names that are not built-in types, canonical-form round-trip for built-ins", "why_tests_cant": "Infinite set of names.", "anchors": ["engine/src/types.rs: QualifiedName::to_cpp_name, new_from_cpp_name, from_segments, segment_iter"]}
{"id": "C24", "title": "Private, deleted and unsupported functions are never callable", "statement": "A function which is private, deleted, variadic, an assignment operator, or has an unsupported parameter, return or receiver never gets a callable Rust binding, whatever other properties it has; and a protected one never gets an externally callable binding.", "quantifier": "every combination of function attributes", "why_tests_cant": "Later checks overwrite the earlier error; must never reset to success.", "anchors": ["engine/src/conversion/analysis/fun/mod.rs: analyze_foreign_fn ignore_reason", "engine/src/conversion/codegen_rs/fun_codegen.rs: gen_function"]}
{"id": "C25", "title": "Raw pointers and unsafe policy force unsafe", "statement": "Any generated function taking a raw pointer parameter is unsafe to call from Rust (constructors' placement pointers excepted, which are hidden behind moveit), and under the default policy every generated function is unsafe to call; no function needing an unsafe bridge call is declared safe in the bridge.", "quantifier": "every function kind, parameter list and safety policy", "why_tests_cant": "All combinations of an open-ended parameter list.", "anchors": ["engine/src/conversion/analysis/fun/mod.rs: should_be_unsafe, convert_fn_arg", "engine/src/conversion/codegen_rs/fun_codegen.rs: UnsafetyNeeded, bridge_token, wrapper_token"]}
{"id": "C26", "title": "Returned references have exactly one possible origin", "statement": "A function returning a reference is bound only if exactly one parameter is a reference that could be its origin (and exactly one mutable one when the result is mutable); otherwise the function is rejected. Thus the elided lifetime of the result is never ambiguous.", "quantifier": "every parameter list and return type", "why_tests_cant": "Parameter lists are unbounded.", "anchors": ["engine/src/conversion/analysis/fun/mod.rs: analyze_foreign_fn 1229-1264"]}
{"id": "C27", "title": "Unsafe operations are always inside unsafe", "statement": "When a wrapper body is emitted, every statement needing unsafe is inside an unsafe block or an unsafe function, no statement which is safe is put in an unsafe block in a safe context, and the order of statements is preserved.", "quantifier": "every sequence of statements and both contexts", "why_tests_cant": "Grouping of consecutive statements over arbitrary sequences.", "anchors": ["engine/src/conversion/codegen_rs/mod.rs: MaybeUnsafeStmt, maybe_unsafes_to_tokens"]}
{"id": "C28", "title": "Generated lifetimes are declared", "statement": "Whenever explicit lifetime 'a is used in a generated signature it is also declared by that signature, and when lifetimes are added to a reference return, all reference parameters share it.", "quantifier": "every parameter list, return type and conversion policy", "why_tests_cant": "All signatures.", "anchors": ["engine/src/conversion/codegen_rs/lifetime.rs: add_explicit_lifetime_if_necessary"]}
{"id": "C29", "title": "Allowlist directives conflict in either order", "statement": "Mixing generate_all! with generate!/generate_ns! is an error in whichever order they occur, repeating generate_all! is harmless, and otherwise every generate directive's item is recorded in order.", "quantifier": "every sequence of allowlist directives", "why_tests_cant": "Unbounded directive sequences.", "anchors": ["parser/src/config.rs: Allowlist::push, set_all"]}
{"id": "C30", "title": "The allowlist selects exactly the named items", "statement": "An item is bound only if it is named by generate!, generate_pod!, concrete!, a subclass or utility, or lies inside a namespace named by generate_ns! (or generate_all! is given).", "quantifier": "every allowlist and every C++ qualified name", "why_tests_cant": "Prefix matching over all strings.", "anchors": ["parser/src/config.rs: is_on_allowlist, AllowlistEntry"]}
{"id": "C31", "title": "Reproduction cases preserve the configuration", "statement": "Printing a configuration as include_cpp! directives and parsing it again gives an equivalent configuration (same allowlist decisions, POD requests, blocklist, policies, subclasses, extern types and functions).", "quantifier": "every configuration", "why_tests_cant": "Infinite configurations; order and representation changes.", "anchors": ["parser/src/config.rs: ToTokens for IncludeCppConfig, Parse for IncludeCppConfig", "parser/src/directives.rs"]}
{"id": "C32", "title": "autocxx_gen never silently overwrites its own output", "statement": "In one run, writing two files of the same name with different content is reported as an error, and writing identical content never is.", "quantifier": "every sequence of writes and every initial content of the output directory", "why_tests_cant": "Depends on the initial state of the disk and on history.", "anchors": ["gen/cmd/src/main.rs: FileWriter::write_to_file"]}
{"id": "C33", "title": "generate-exact produces exactly N files", "statement": "With --generate-exact N, a successful run leaves files numbered exactly 0..N-1 of each kind; if more are needed the run fails.", "quantifier": "every N and every number of generated files", "why_tests_cant": "Boundary off-by-one over all N.", "anchors": ["gen/cmd/src/main.rs: FileWriter::write_placeholders"]}
{"id": "C34", "title": "Dependency files list every input for every output", "statement": "The written dependency file has one rule per recorded output, each listing every recorded dependency once per recording, in order, and can be read back.", "quantifier": "every sequence of add_output and add_dependency calls", "why_tests_cant": "Unbounded sequences and arbitrary path strings.", "anchors": ["gen/cmd/src/depfile.rs: Depfile"]}
{"id": "C35", "title": "Code generator and macro agree on file locations", "statement": "For every way the environment can select a location, the Rust file name included by the macro is a file which the build-script code generator wrote for the same configuration.", "quantifier": "every environment and configuration", "why_tests_cant": "All combinations of environment variables between two processes.", "anchors": ["parser/src/file_locations.rs: FileLocationStrategy", "parser/src/config.rs: get_rs_filename"]}
{"id": "C36", "title": "Rebuilds with unchanged input touch nothing", "statement": "Re-running the code generator's file writes with the same contents changes no file on disk and no timestamps; after any run every written file holds the last content written to it.", "quantifier": "every sequence of writes and every initial disk state", "why_tests_cant": "History and disk state are unbounded.", "anchors": ["engine/src/builder.rs: write_to_file, build_listing_files", "gen/cmd/src/main.rs: FileWriter::write_to_file"]}
{"id": "C37", "title": "Bindings archive returns the right bindings", "statement": "Looking up a configuration in an archive of bindings returns exactly the bindings generated for it, and reports missing bindings when none were generated; in particular the macro finds the bindings which the code generator produced for the same include_cpp! block.", "quantifier": "every sequence of inserted configurations and every looked-up configuration, and every source file", "why_tests_cant": "History of insertions; the code generator's configuration is mutated before hashing.", "anchors": ["parser/src/multi_bindings.rs: MultiBindings", "engine/src/output_generators.rs: generate_rs_archive", "engine/src/parse_file.rs"]}
{"id": "C38", "title": "Every include_cpp! block is processed once; name clashes are errors", "statement": "Parsing a Rust file finds every include_cpp! block at any module nesting exactly once and in order; two blocks generating the same module name are an error rather than overwriting each other.", "quantifier": "every tree of modules and blocks", "why_tests_cant": "Arbitrary nesting and multiplicity.", "anchors": ["engine/src/parse_file.rs: parse_file_contents, get_autocxxes, resolve_all"]}
{"id": "C39", "title": "Every block is complete before generation", "statement": "No include_cpp! block, wherever it is placed and whatever directives it has, reaches code generation with an undecided allowlist (which makes the generator panic).", "quantifier": "every source file", "why_tests_cant": "Arbitrary nesting.", "anchors": ["engine/src/parse_file.rs: parse_file_contents confirm_complete", "parser/src/config.rs: confirm_complete, bindgen_allowlist, is_on_allowlist"]}
{"id": "C40", "title": "Header names are unique", "statement": "The n-th generated cxx header gets a name different from every earlier one, starting with cxxgen.h; generated autocxx headers of different modules have different names.", "quantifier": "any number of generated headers and any module names", "why_tests_cant": "Unbounded counters, injectivity over strings.", "anchors": ["engine/src/lib.rs: AutocxxgenHeaderNamer, CxxgenHeaderNamer", "gen/cmd/src/main.rs: name_autocxxgen_h, name_cxxgen_h, name_include_rs"]}
{"id": "C41", "title": "Namespace grouping loses and misplaces nothing", "statement": "Organising items by namespace puts every item exactly once, in the nested module path equal to its C++ namespace, preserving the relative order of items of a namespace; there is no empty module.", "quantifier": "every list of items with any namespaces", "why_tests_cant": "Nesting depth unbounded.", "anchors": ["engine/src/conversion/codegen_rs/namespace_organizer.rs: NamespaceEntries, HasNs"]}
{"id": "C42", "title": "Subclass ownership is memory safe", "statement": "For the three ownership modes of Rust subclasses, no sequence of dropping handles, calling methods, relinquishing ownership or deleting self ever uses a destroyed peer, destroys an object twice, or (rust-owned and C++-owned) leaks when the owner is dropped.", "quantifier": "every operation history", "why_tests_cant": "Interleavings of drops and calls are unbounded.", "anchors": ["src/subclass.rs: CppSubclassRustPeerHolder, CppSubclassCppPeerHolder, make_owning_peer, new_cpp_owned, new_rust_owned, new_self_owned, delete_self", "engine/src/conversion/codegen_cpp/mod.rs: generate_subclass"]}
{"id": "C43", "title": "Re-entrant upcalls panic, never alias", "statement": "A virtual call into a Rust subclass either runs with exclusive (or shared) access consistent with all calls in progress, or panics; two mutable borrows of the Rust subclass never coexist.", "quantifier": "every tree of nested calls", "why_tests_cant": "Unbounded nesting of re-entrant calls.", "anchors": ["engine/src/conversion/codegen_rs/mod.rs: generate_subclass_fn", "src/subclass.rs"]}
{"id": "C44", "title": "Value parameters are constructed and destroyed exactly once", "statement": "Passing an argument to a by-value C++ parameter constructs the temporary once, hands C++ a pointer to it, and destroys it exactly once, for every kind of argument, including when construction panics.", "quantifier": "every argument kind and every point of failure", "why_tests_cant": "Crash points inside foreign constructors.", "anchors": ["src/value_param.rs: ValueParam, ValueParamHandler", "src/rvalue_param.rs: RValueParamHandler"]}
{"id": "C45", "title": "C++ references always denote the pinned object", "statement": "All C++ references obtained from a CppPin or CppUniquePtrPin denote the same object for its whole life, whatever conversions and casts they go through, and references survive moving the pin.", "quantifier": "every sequence of conversions", "why_tests_cant": "Unbounded sequences of wrap/cast/deref operations.", "anchors": ["src/reference_wrapper.rs: CppRef, CppMutRef, CppPin, CppUniquePtrPin"]}
{"id": "C46", "title": "Errors are isolated to the failing item", "statement": "When conversion of one item fails, every other item is converted as if the failing one succeeded or was absent, in the same order, and the failing item is replaced by exactly one ignored item carrying the error under its own name (or its class's).", "quantifier": "every item list and every per-item success/failure pattern", "why_tests_cant": "Exponential number of failure patterns.", "anchors": ["engine/src/conversion/error_reporter.rs: report_any_error, convert_apis, convert_item_apis, api_or_error"]}
{"id": "C47", "title": "Facts recorded about C++ items are found again", "statement": "Visibility, virtualness, special-member kind, deletedness and original names reported by the C++ parser for an item are returned for that item's qualified name and for no other.", "quantifier": "every sequence of parser callbacks", "why_tests_cant": "Unbounded histories; names collide across modules.", "anchors": ["engine/src/parse_callbacks.rs: AutocxxParseCallbacks, ParseCallbackResults"]}
{"id": "C48", "title": "Automatic allowlisting finds every ffi:: use", "statement": "With auto_allowlist, every path beginning with ffi:: in expression, type, pattern, or use position in the Rust source is put on the allowlist, and nothing else is.", "quantifier": "every Rust syntax tree", "why_tests_cant": "Arbitrary syntax trees.", "anchors": ["engine/src/ast_discoverer.rs: Discoveries"]}
{"id": "C49", "title": "C++ conversions are inverse", "statement": "The C++-side conversion used for calling back into Rust is the inverse of that for calling C++: converting there and back returns the original type, for every conversion which can occur in a subclass method.", "quantifier": "every conversion policy", "why_tests_cant": "All type/conversion combinations.", "anchors": ["engine/src/conversion/analysis/fun/function_wrapper.rs: CppConversionType::inverse, TypeConversionPolicy", "engine/src/conversion/codegen_cpp/function_wrapper_cpp.rs"]}
{"id": "C50", "title": "C++ type spelling is faithful", "statement": "The C++ spelling produced for a type denotes the C++ type: pointers, references, constness and generic arguments are preserved, different supported types get different spellings, and unsupported types are rejected rather than misprinted.", "quantifier": "every type expression", "why_tests_cant": "Recursive types.", "anchors": ["engine/src/conversion/codegen_cpp/type_to_cpp.rs: CppNameMap::type_to_cpp"]}
{"id": "C51", "title": "Generate directives are honoured or reported", "statement": "If a generate!/generate_pod! directive names something that was not found in the headers, generation fails with an error naming it; success means each directive matched an API.", "quantifier": "every API list and allowlist", "why_tests_cant": "All combinations.", "anchors": ["engine/src/conversion/parse/parse_bindgen.rs: confirm_all_generate_directives_obeyed", "parser/src/config.rs: must_generate_list"]}
{"id": "C52", "title": "Block directives are honoured", "statement": "A C++ type named in block! never appears in the generated code, nor does any function using it.", "quantifier": "every item list and blocklist", "why_tests_cant": "All item kinds and dependency chains.", "anchors": ["engine/src/conversion/parse/parse_bindgen.rs: parse_item", "parser/src/config.rs: is_on_blocklist", "engine/src/conversion/analysis/remove_ignored.rs"]}
{"id": "C53", "title": "Engine call protocol", "statement": "Configuration can be changed only before generation; generation happens at most once; outputs can only be read after success; a parse_only! block yields empty bindings. Any other call order panics rather than yielding stale or partial output.", "quantifier": "every sequence of engine calls", "why_tests_cant": "Unbounded call sequences.", "anchors": ["engine/src/lib.rs: IncludeCppEngine::config_mut, generate, get_rs_output, include_dirs, generate_h_and_cxx"]}
{"id": "C54", "title": "Suppressing system headers removes only system includes", "statement": "With suppress_system_headers exactly the lines starting with #include < are removed from generated C++, every other line is kept, in order, and the operation is idempotent.", "quantifier": "every byte content", "why_tests_cant": "All texts.", "anchors": ["engine/src/lib.rs: strip_system_headers"]}
{"id": "C55", "title": "Trivially constructed subclasses are exactly those with one no-argument constructor", "statement": "A default peer constructor is generated for a subclass exactly when the superclass gives it no constructor that takes parameters and at least one without.", "quantifier": "every API list", "why_tests_cant": "All constructor combinations and orders.", "anchors": ["engine/src/conversion/codegen_rs/mod.rs: find_trivially_constructed_subclasses"]}
{"id": "C56", "title": "Extern C++ types replace what was parsed", "statement": "After parsing, for each extern_cpp_type! there is exactly one API with that name and it is the external type; all other APIs are unchanged.", "quantifier": "every parsed API list and every set of extern types", "why_tests_cant": "All lists.", "anchors": ["engine/src/conversion/parse/parse_bindgen.rs: replace_extern_cpp_types"]}
{"id": "C57", "title": "Extern Rust function dependencies are complete", "statement": "Accepting a Rust function signature for export to C++ records every type it mentions as a dependency, and rejects any signature using namespaced types, self receivers, mutable references that are not pinned or unsupported generics.", "quantifier": "every signature", "why_tests_cant": "Recursive type expressions.", "anchors": ["engine/src/conversion/parse/extern_fun_signatures.rs: assemble_extern_fun_deps, add_type_to_deps, add_path_to_deps"]}
{"id": "C58", "title": "The analysis pipeline preserves soundness end to end", "statement": "Composing abstract-type marking, constructor dependencies, discarding ignored functions, name checking, dependency filtering and garbage collection yields APIs that are pairwise uniquely named, all reachable from the allowlist, and none of which depends on an ignored item.", "quantifier": "every analysed API list", "why_tests_cant": "Interaction between passes over arbitrary inputs.", "anchors": ["engine/src/conversion/mod.rs: BridgeConverter::convert"]}
{"id": "C59", "title": "Unqualified types lose only namespaces", "statement": "Removing namespaces from types for the flat bridge keeps all type structure (generic arguments, references, pointers), is idempotent, and never identifies two types that differ in anything other than namespaces.", "quantifier": "every type expression", "why_tests_cant": "Recursive types.", "anchors": ["engine/src/conversion/codegen_rs/unqualify.rs"]}
{"id": "C60", "title": "Converted types keep pointers and references and report them", "statement": "Converting a C++ type for the bridge keeps every outer pointer, reference and rvalue reference with its constness and pointee, and the reported kind of the result says exactly what the result is, so that a raw pointer (even one hidden behind typedefs) is never mistaken for a plain value.", "quantifier": "every type, typedef map, context and conversion state", "why_tests_cant": "Recursive types, arbitrary typedef chains and bindgen markers.", "anchors": ["engine/src/conversion/analysis/type_converter.rs: convert_type", "engine/src/conversion/analysis/type_converter.rs: convert_type_path"]}
{"id": "C61", "title": "Type conversion records every dependency", "statement": "Every type mentioned in a converted type is built in, or is among the recorded dependencies, or is mentioned by what a recorded typedef stands for; the name written in the source is recorded too.", "quantifier": "every type and typedef map", "why_tests_cant": "A missed dependency only shows for particular combinations of nesting and typedefs.", "anchors": ["engine/src/conversion/analysis/type_converter.rs: types_encountered"]}
{"id": "C62", "title": "Forward-declared types are never used by value", "statement": "A type known only by a forward declaration never appears by value in a converted type outside a pointer or reference, nor as the argument of a smart pointer or vector.", "quantifier": "every type, every set of forward declarations", "why_tests_cant": "All nestings of containers and references.", "anchors": ["engine/src/conversion/analysis/type_converter.rs: convert_type_path", "engine/src/conversion/analysis/type_converter.rs: confirm_inner_type_is_acceptable_generic_payload"]}
{"id": "C63", "title": "Template instantiations met during conversion get an API", "statement": "Converting a type never changes the Rust name of an instantiation already named; each API it makes is for a spelling not named before and registered under its C++ spelling; and every instantiation named gets its API.", "quantifier": "every type and conversion state", "why_tests_cant": "State threaded through recursive calls.", "anchors": ["engine/src/conversion/analysis/type_converter.rs: get_templated_typename", "engine/src/conversion/analysis/type_converter.rs: convert_punctuated"]}
{"id": "C64", "title": "Type conversion terminates", "statement": "Converting any type ends, for any typedef map.", "quantifier": "every type and typedef map", "why_tests_cant": "Termination over arbitrary, possibly cyclic, typedef maps.", "anchors": ["engine/src/conversion/analysis/type_converter.rs: convert_type", "engine/src/conversion/analysis/type_converter.rs: resolve_typedef"]}
{"id": "C65", "title": "Struct analysis records bases, fields and dependencies", "statement": "The analysis of a struct gives it kind POD only if the by-value checker allows it, every field type could be converted and no field is an rvalue reference; it records exactly the bases bindgen marks, offers casts only to public allowlisted bases, and records the dependencies and types of every field other than bases and padding, and every template instantiation met.", "quantifier": "every struct, field list and behaviour of the type converter", "why_tests_cant": "Arbitrary field lists and conversion outcomes.", "anchors": ["engine/src/conversion/analysis/pod/mod.rs: analyze_struct, get_struct_field_types, get_bases"]}
{"id": "C66", "title": "Wrappers pass each argument, converted, in its place", "statement": "Running a generated Rust wrapper calls exactly the bridge function it wraps, with every parameter of the signature converted as the analysis decided and in the order the bridge expects, and returns the converted result; local variables invented by the generator never capture a parameter.", "quantifier": "every function, parameter list and conversion policy", "why_tests_cant": "Parameter lists and names are unbounded; capture depends on the names users choose.", "anchors": ["engine/src/conversion/codegen_rs/fun_codegen.rs: common_parts", "engine/src/conversion/codegen_rs/function_wrapper_rs.rs: rust_conversion"]}
{"id": "C67", "title": "C++ wrappers type-check and pass arguments in order", "statement": "Every C++ wrapper written for a call from Rust is a well-typed C++ function: its parameters have distinct names, each non-placement parameter reaches the wrapped function exactly once and in order as the type that function takes, and the result is returned as declared or constructed in the place given.", "quantifier": "every function to wrap, every list of conversion policies", "why_tests_cant": "Every combination of conversions, kinds of function and number of parameters.", "anchors": ["engine/src/conversion/codegen_cpp/mod.rs: generate_cpp_function_inner", "engine/src/conversion/codegen_cpp/function_wrapper_cpp.rs"]}
{"id": "C68", "title": "Parsing bindgen's output loses no item, invents none and does not panic", "statement": "Every struct, enum, alias, constant, type and extern function in the module tree written by bindgen is represented in the parsed API list by an API whose qualified name is the module path plus the item's name (possibly an ignored API carrying the reason), unless it is provided by autocxx or Rust, blocked, or one of bindgen's own tables; conversely every API comes from such an item, from the configuration, or marks a name clash of those. On trees of the shape bindgen writes the pass does not panic.", "quantifier": "all module trees of any depth and width, all configurations, all callback reports", "why_tests_cant": "Tests parse a few hundred headers; the claim is about every nesting, clash and identifier.", "anchors": ["engine/src/conversion/parse/parse_bindgen.rs:192-205", "engine/src/conversion/parse/parse_bindgen.rs:207-387", "engine/src/conversion/parse/parse_foreign_mod.rs:60-148"]}
{"id": "C69", "title": "A function's receiver is the type of the impl block of the same module that calls it", "statement": "A parsed function is a method of type T exactly when an impl block for T in the same namespace module wraps the extern function; a function with no such block is a free function, whatever the order of the items and whatever other namespaces contain.", "quantifier": "all module trees, all orders of items, all configurations", "why_tests_cant": "The receiver map is filled while items are visited and read when the module is finished; only all orders and nestings show that it is neither lost nor leaked to other modules.", "anchors": ["engine/src/conversion/parse/parse_foreign_mod.rs:109-128", "engine/src/conversion/parse/parse_foreign_mod.rs:133-148"]}
{"id": "C70", "title": "Exported Rust items are found with their paths", "statement": "A search of the user's code which succeeds has recorded exactly the functions, types and methods marked for export to C++, each under the path of modules in which it stands; it fails exactly when a marked method cannot be exported (in a module, in an impl of a trait or of a type which is not a single name, or without parameters), and never panics.", "quantifier": "every Rust syntax tree and every starting module", "why_tests_cant": "Arbitrary nesting of modules, impls, functions and blocks.", "anchors": ["engine/src/ast_discoverer.rs: search_item, search_impl_item, deeper_path"]}
{"id": "C71", "title": "Receivers of exported methods name their class", "statement": "The receiver type written for an exported method does not mention Self.", "quantifier": "every receiver type", "why_tests_cant": "Receiver types nest without bound.", "anchors": ["engine/src/ast_discoverer.rs: add_receiver, SelfSubstituter"]}
{"id": "C72", "title": "Discoveries go to one block and leave the others alone", "statement": "When parsing a file succeeds, everything exported to C++ and every superclass found anywhere in it (and, if asked for, every C++ name used) is added to the single block outside modules, or to a new last block if there is none; nothing else is added, and every other block is as written. The added block does not make a valid file invalid.", "quantifier": "every source file", "why_tests_cant": "Arbitrary nesting of modules and arbitrary positions of blocks and exports.", "anchors": ["engine/src/parse_file.rs: parse_file_contents", "engine/src/lib.rs: new_for_autodiscover, config_mut"]}
{"id": "C73", "title": "Module names of namespaces do not clash with autocxx's own names", "statement": "In the generated Rust, the modules made for C++ namespaces never define a name twice together with the modules and imports which autocxx itself generates beside them.", "quantifier": "every list of APIs with any namespaces", "why_tests_cant": "Namespace names are chosen by C++ authors and any path may occur.", "anchors": ["engine/src/conversion/codegen_rs/mod.rs: rs_codegen, append_child_output_namespace"]}
{"id": "C74", "title": "The traits, implementations, upcalls and super functions of a Rust subclass fit together", "statement": "For a C++ class extended from Rust, the generated _supers trait is implemented for every subclass with the same signatures, the _methods trait's default bodies call a method of the _supers trait with all parameters, every call from C++ reaches a method of the _methods trait with the same parameters, result and unsafety, and every implementation calls a function of the C++ peer which exists and passes all parameters on.", "quantifier": "every list of classes, virtual methods and subclasses", "why_tests_cant": "Methods, overloads, unsupported types and subclasses combine without limit, and the pieces are made in different phases.", "anchors": ["engine/src/conversion/analysis/fun/mod.rs: analyze_foreign_fn_and_subclasses, add_subclass_constructors", "engine/src/conversion/analysis/fun/subclass.rs", "engine/src/conversion/codegen_rs/mod.rs: add_superclass_stuff_to_type, generate_subclass, generate_subclass_fn"]}
{"id": "C75", "title": "A class that is kept keeps what copies, moves and allocates its values", "statement": "Each class that can be instantiated is made to depend on exactly the usable copy constructors, move constructors and allocation functions of that class and every other class on none; therefore, when every type mentioned exists, a class which survives filtering and garbage collection has all of those functions in the output.", "quantifier": "every analysed API list, allowlist and set of built-in types", "why_tests_cant": "The dependency is only needed when nothing else keeps the function; which functions survive depends on the order and interaction of five passes.", "anchors": ["engine/src/conversion/analysis/constructor_deps.rs: decorate_types_with_constructor_deps, find_important_constructors", "engine/src/conversion/mod.rs: BridgeConverter::convert"]}
{"id": "C76", "title": "Every C type of variable length that is used is declared, and nothing is lost for it", "statement": "After garbage collection each C type of variable length used by a kept API gets a declaration named after it, each identifier once, and all kept APIs stay.", "quantifier": "every collection of APIs", "why_tests_cant": "Depends on arbitrary combinations of types used and user names in the root namespace.", "anchors": ["engine/src/conversion/analysis/ctypes.rs: append_ctype_information"]}
{"id": "C77", "title": "Functions are safe to call only if the macro says so", "statement": "The unsafety policy of every accepted include_cpp! macro is the one its last safety! directive states; without any, every generated function is unsafe to call. Hence functions become callable without unsafe only if safety!(unsafe), safety!(unsafe_ffi) or safety!(unsafe_references_wrapped) is in the text, and any other argument is refused.", "quantifier": "for all token sequences of a macro which the parser accepts", "why_tests_cant": "Directives may come in any number and order between arbitrary others; tests use one safety! line near the top.", "anchors": ["parser/src/config.rs:30-72", "parser/src/config.rs:234-270", "parser/src/directives.rs:276-284"]}
{"id": "C78", "title": "Typedefs of what was refused", "statement": "After the analysis of types, a typedef which is kept never has a target naming an item that parsing or analysis refused, never stands for itself and has no parameters. A typedef becomes an opaque type only if it depends on a refused item, and is then held by value only if the user asked for it and it is not nested. A forward declaration in error becomes an ignored item with that same error.", "quantifier": "every list of parsed APIs, every configuration, every target type", "why_tests_cant": "Typedef chains, nesting and refused items combine without limit; tests have a handful of headers.", "anchors": ["engine/src/conversion/analysis/tdef.rs: convert_typedef_targets, get_replacement_typedef", "engine/src/conversion/analysis/replace_hopeless_typedef_targets.rs"]}
{"id": "C79", "title": "No API lost or invented before function analysis", "statement": "Between parsing and the analysis of functions each API stays what it is, becomes an ignored item with an error, or (a typedef) an opaque type; every API found afterwards was parsed or has a name autocxx makes up; names stay unique.", "quantifier": "every list of parsed APIs with distinct names and every configuration", "why_tests_cant": "Five passes rebuild the collection; an item dropped by one of them for one combination of names is not noticed by tests.", "anchors": ["engine/src/conversion/mod.rs: convert", "engine/src/conversion/error_reporter.rs: convert_apis", "engine/src/conversion/apivec.rs: push"]}
{"id": "C80", "title": "Casts exactly to public allowed bases", "statement": "Each class gets a cast to each of its public bases which the user allows, and to nothing else; the cast takes a pointer to a constant object of the class and gives a constant reference to the base.", "quantifier": "every list of parsed APIs, every class and field list", "why_tests_cant": "Class hierarchies are unbounded; a cast to a private or foreign base would be a compile error in C++ only for the header that has it.", "anchors": ["engine/src/conversion/analysis/casts.rs: add_casts, create_casts, create_cast", "engine/src/conversion/analysis/pod/mod.rs: get_bases"]}
{"id": "C81", "title": "Storage functions for exactly the stored types", "statement": "Every struct and every subclass has exactly one entry for its allocation function and one for its deallocation function, each of which is that function or is ignored because the name is also wanted for something else; and there are none for other types.", "quantifier": "every list of parsed APIs and every configuration", "why_tests_cant": "Names can clash in unboundedly many ways; an unpaired allocation shows up only when an object is created and destroyed.", "anchors": ["engine/src/conversion/analysis/allocators.rs: create_alloc_and_frees, create_alloc_and_free"]}
{"id": "C82", "title": "Function analysis accounts for every API", "statement": "After the analysis of functions there is, under its name, an entry for each API which went in and is no function, for each function which went in and each special member C++ declares by itself under the name the analysis gave it, and for each template instantiation met; everything there is one of these or was made for a subclass, except that several of one name are replaced by one ignored item; and no function is left unanalysed.", "quantifier": "every list of APIs, every configuration, every successful run", "why_tests_cant": "The collection is rebuilt four times and new items are added for members, subclasses and instantiations; a loss depends on combinations of names no test enumerates.", "anchors": ["engine/src/conversion/analysis/fun/mod.rs: analyze_functions, add_constructors_present, add_subclass_constructors", "engine/src/conversion/convert_error.rs", "engine/src/conversion/apivec.rs: push"]}
{"id": "C83", "title": "Special members added once and never beside a declared one", "statement": "Each special member is added at most once for a type; it is added only for a struct which went in, if implementations are wanted and its constructors are not blocked, and only if no function in the list declares it or rules it out, unless the entry of that function was lost to a clash of names. What is added becomes the implementation of the matching trait for that type, or its default constructor.", "quantifier": "every list of APIs, every configuration, every successful run; every type and special member", "why_tests_cant": "The rules of C++ for implicit members range over all combinations of declarations; a second copy constructor makes the generated code fail to compile only for some header.", "anchors": ["engine/src/conversion/analysis/fun/mod.rs: add_constructors_present, synthesize_special_member", "engine/src/conversion/analysis/fun/implicit_constructors.rs: find_constructors_present, find_explicit_items"]}
{"id": "C84", "title": "Types in kept signatures exist", "statement": "Every type named, at any depth, in the analysed signature of a function which is kept to the end is built in, is a holder or a C++ class made for a subclass, or is an item which is itself kept and usable.", "quantifier": "every list of parsed APIs, every configuration, every successful run of all the phases, every kept function, every parameter and return type and every name inside it", "why_tests_cant": "Type names are rewritten by typedef resolution and template instantiation, while what is kept is decided from recorded dependencies by four later passes; a name the record misses dangles only for particular nestings.", "anchors": ["engine/src/conversion/mod.rs: convert", "engine/src/conversion/analysis/type_converter.rs: convert_type", "engine/src/conversion/analysis/fun/mod.rs: analyze_foreign_fn", "engine/src/conversion/analysis/remove_ignored.rs: filter_apis_by_ignored_dependents", "engine/src/conversion/analysis/gc.rs: filter_apis_by_following_edges_from_allowlist"]}
{"id": "C85", "title": "What the user lists leaves a trace", "statement": "Every item the user lists by name, and every method and constructor of a class the user lists, is in the end either kept as it was analysed or reported as an error under its name; the only exceptions are constructors of abstract classes and names which the bridge cannot hold.", "quantifier": "every list of parsed APIs, every configuration, every allowlist, every successful run of all the phases", "why_tests_cant": "Six passes may drop or rename an item, and garbage collection discards whatever is not filed under a listed name; a test shows only that a particular item and its particular error survive.", "anchors": ["engine/src/conversion/mod.rs: convert", "engine/src/conversion/api.rs: name_for_allowlist", "engine/src/conversion/analysis/remove_ignored.rs: create_ignore_item", "engine/src/conversion/analysis/fun/mod.rs: error_context_for_method", "engine/src/conversion/analysis/gc.rs: filter_apis_by_following_edges_from_allowlist"]}
{"id": "C86", "title": "The generated C++ header and source hold together", "statement": "For every list of APIs, the generated header includes what its declarations need, each header once and the user's inclusions after the system ones; it then has exactly one type for each API that needs one, each subclass's holder directly before its class, and exactly one declaration for each API that needs one; the source file exists exactly if there is a subclass and defines each overriding method once; generation fails only on a function that cannot be written or a type that cannot be spelled; and the Rust bridge includes the header exactly if there is one. In a whole conversion each class that is declared on is there.", "quantifier": "every list of APIs with distinct names, every C++ options, every user's inclusions; for the last part every successful conversion", "why_tests_cant": "Which includes, types, declarations and definitions are written depends on which kinds of API are left after six passes, in any combination; a test fixes one header and one set of directives.", "anchors": ["engine/src/conversion/codegen_cpp/mod.rs: generate_cpp_code", "engine/src/conversion/codegen_cpp/mod.rs: add_needs", "engine/src/conversion/codegen_cpp/mod.rs: generate", "engine/src/conversion/codegen_cpp/mod.rs: generate_subclass", "engine/src/conversion/codegen_rs/mod.rs: build_include_foreign_items", "engine/src/conversion/mod.rs: convert"]}
{"id": "C87", "title": "Each generated function calls the C++ function it stands for", "statement": "For every function kept by the analysis, what the generated code calls is the C++ entity the function stands for: a free function in its own namespace under its C++ name, a method of that name on the receiver, a static method of its class, a constructor or the destructor of its class; whether the call goes through a generated C++ wrapper or directly through the cxx_name and namespace attributes. The API bears the name used in the bridge.", "quantifier": "every function, environment, analysis state and result of the whole analysis; names which mislead the recognition of constructors are excluded and shown to be needed", "why_tests_cant": "Which of the names (bindgen's, C++'s, Rust's, the bridge's) is used where depends on overloads, keywords, wrappers, nesting and namespaces together; a test exercises one combination.", "anchors": ["engine/src/conversion/analysis/fun/mod.rs: analyze_foreign_fn", "engine/src/conversion/analysis/fun/mod.rs: constructor_with_suffix", "engine/src/conversion/codegen_rs/fun_codegen.rs: gen_function", "engine/src/parse_callbacks.rs: does_not_match_cxxbridge_name"]}
{"id": "C88", "title": "Names in the generated Rust code lead somewhere", "statement": "In the generated Rust code as a whole: a type the cxx bridge takes from a module of the output is defined in that module, and the promise the module makes about it (ExternType) has the C++ name the bridge gives it; every `use` and every wrapped type follows a path to a declaration of the bridge or to the item bindgen made in the module of the same name; what is generated for subclasses calls functions and names types the bridge declares; smart pointer support is asked for declared types only; every `impl` block is for a type of its own module.", "quantifier": "every list of APIs, every order of hash maps, every conversion; impl blocks of classes unknown to the analysis or left as unnamed errors, and those holding error entries, are excluded and shown to be needed", "why_tests_cant": "Each name is spelled by a different piece of code (bridge attributes, ExternType ids, use paths, impl keys); whether they agree depends on namespaces, nesting, refused items and subclasses together.", "anchors": ["engine/src/conversion/codegen_rs/mod.rs: rs_codegen", "engine/src/conversion/codegen_rs/mod.rs: generate_rs_for_api", "engine/src/conversion/codegen_rs/mod.rs: generate_type", "engine/src/conversion/codegen_rs/mod.rs: generate_cxxbridge_type", "engine/src/conversion/codegen_rs/mod.rs: generate_subclass", "engine/src/conversion/codegen_rs/utils.rs: generate_cxx_use_stmt"]}
{"id": "C89", "title": "Types in the signatures told to cxx are told to cxx", "statement": "Every type named in the signature of a function declared in the cxx bridge is either built into cxx or declared in the bridge: as a type of its own, as a C type, or as a Rust type. In particular typedefs are seen through, and the C integer types used anywhere in a signature, directly or through typedefs, have a declaration.", "quantifier": "every parsed input, every configuration, every conversion that succeeds, every order of hash maps, every function of the bridge and every path at any depth of its types; typedefs of pointers to typedefs, lost subclasses and broken items are excluded and shown to be needed", "why_tests_cant": "The signature and the declarations are made by different phases from different lists (the dependencies recorded during conversion, the garbage collection, the list of C types); whether they agree depends on typedef chains, template instantiations and refused items in any combination.", "anchors": ["engine/src/conversion/analysis/type_converter.rs: convert_type", "engine/src/conversion/analysis/ctypes.rs: append_ctype_information", "engine/src/conversion/analysis/fun/mod.rs: analyze_foreign_fn", "engine/src/conversion/codegen_rs/mod.rs: generate_rs_for_api", "engine/src/conversion/codegen_rs/fun_codegen.rs: gen_function"]}
{"id": "C90", "title": "From bindgen's items to the bridge", "statement": "Every function declared in the cxx bridge has a source: an extern function in bindgen's items, with the parameters, return type, receiver, virtualness, visibility and special-member kind reported for it; the allocation and freeing of a declared struct or of a requested subclass; a cast from a declared struct to a declared public base; a special member C++ declares implicitly for a declared struct; or a requested subclass's version of such a function. The APIs parsing makes meet the conditions which the later phases were proved under: distinct names, errors filed at the item they are about, `use` items naming plain paths, no converted typedefs.", "quantifier": "every list of bindgen items at any depth of modules, every configuration, every sequence of callbacks, every conversion that succeeds, every order of hash maps", "why_tests_cant": "The source of a function passes through parsing, typedef and POD analysis, function analysis, special-member synthesis, subclassing, garbage collection and code generation; that no combination of these invents or alters a function is a statement about all inputs.", "anchors": ["engine/src/conversion/parse/parse_bindgen.rs: parse_items", "engine/src/conversion/parse/parse_foreign_mod.rs: finished", "engine/src/conversion/mod.rs: convert", "engine/src/conversion/codegen_rs/mod.rs: rs_codegen"]}
{"id": "C91", "title": "Everything kept is in the generated Rust code", "statement": "Every item which survives analysis has its place in the generated Rust code: a type is told to cxx and shown under its name in the module of its namespace; a function is declared to cxx and can be called under the Rust name analysis chose, as a function of its module, in an impl block of its class, in an implementation of a trait, or as a bridge function with a receiver; an error is recorded under the name of the item or method. The smart pointers and vectors asked of cxx are exactly those of types which can be destroyed and moved. The C++ half of a subclass is constructible by default exactly if all functions are safe and it has constructors without parameters and none with. The definitions outside the modules are exactly those for the user's types and functions, for string construction, for releasing subclasses, and for the functions C++ calls to reach overrides, each of which calls the method of its superclass's trait. The code of each function is generated knowing exactly the classes which are not passed by value.", "quantifier": "every list of parsed APIs, every configuration, every successful run of all the phases, every iteration order of the hash maps", "why_tests_cant": "A generator that forgets one kind of item in one combination of wrapper, kind of method and renaming compiles and passes every test which does not use that combination; that nothing is forgotten is a statement about all of them.", "anchors": ["engine/src/conversion/codegen_rs/mod.rs: rs_codegen", "engine/src/conversion/codegen_rs/mod.rs: generate_rs_for_api", "engine/src/conversion/codegen_rs/fun_codegen.rs: gen_function", "engine/src/conversion/codegen_rs/impl_item_creator.rs: create_impl_items", "engine/src/conversion/codegen_rs/mod.rs: find_trivially_constructed_subclasses"]}
{"id": "C92", "title": "The Rust code can be generated for everything which survived analysis", "statement": "If parsing, the analyses before and of functions, and the phases after succeed, generating the Rust code does not panic: every function kept can be given its parameters, conversions, lifetimes and wrapper, every class kept was analysed, every superclass trait and every subclass can be written, and the includes are known; provided constructors and destructors are as C++ has them, nothing kept depends on a type with a name of Rust's Pin, and the methods offered to Rust subclasses have their receiver. Without the proviso about Pin this is false of the code: a C++ class called Pin in the signature of a function which needs an explicit lifetime ends the run in a panic.", "quantifier": "for all items given by bindgen, configurations, known types, typedefs and options of the generated code", "why_tests_cant": "Each panic depends on a combination of the kind of a function, the conversions chosen for its parameters and result, the types behind typedefs and the policies; tests meet only a few of these combinations, and an absence of panics is about all of them.", "anchors": ["engine/src/conversion/codegen_rs/mod.rs: rs_codegen", "engine/src/conversion/codegen_rs/fun_codegen.rs: gen_function", "engine/src/conversion/codegen_rs/fun_codegen.rs: common_parts", "engine/src/conversion/codegen_rs/lifetime.rs: add_explicit_lifetime_if_necessary", "engine/src/conversion/codegen_rs/lifetime.rs: add_lifetime_to_pinned_reference", "engine/src/conversion/codegen_rs/function_wrapper_rs.rs: rust_conversion"]}
{"id": "C93", "title": "The preprocessor of the book keeps the text, and shows and tests every code example", "statement": "The chapters of the book are taken apart into text, other code blocks and code examples. Text and other code blocks come out as they are, in order; each example is replaced by its C++ header, its C++ implementation unless that is empty or hidden, and its Rust code, and is tested unless marked otherwise, under the number of the line of its fence. The parts of an example are exactly what is within the first and last character of the arguments of its call; a line of the Rust code gets one more # if and only if it starts with one but for blanks. The book is written if and only if every chapter can be taken apart and every test that is asked for passes. False of the code: the C++ code is not the value of its literal if a backslash is escaped in it, and an example whose block is not closed is dropped without an error.", "quantifier": "for all texts of chapters, files, results of parsing the examples, outcomes of tests and options", "why_tests_cant": "The tool has no tests; the text of the book is one input. Positions over several lines, blanks over several lines in the regular expression and the nesting of fences have unboundedly many cases.", "anchors": ["tools/mdbook-preprocessor/src/main.rs: substitute_chapter", "tools/mdbook-preprocessor/src/main.rs: recognize_line", "tools/mdbook-preprocessor/src/main.rs: handle_code_block", "tools/mdbook-preprocessor/src/main.rs: extract_span", "tools/mdbook-preprocessor/src/main.rs: escape_hexathorpes", "tools/mdbook-preprocessor/src/main.rs: unescape_quotes", "tools/mdbook-preprocessor/src/main.rs: preprocess"]}
{"id": "C94", "title": "The reduction tool tests what it was asked to reduce", "statement": "autocxx-reduce gives every header, directive, include directory, macro definition and clang argument it was asked for to the preprocessor and the generator; the script by which creduce judges a smaller header runs the same generation as the sample run, with the same arguments, and finds the problem in whatever the generator or the compilers say of its output, but never in a header which does not compile; cxx's guards are defined, each once, exactly when its declarations are already in the header; creduce is run on the prepared header with that script and the user's arguments, and its result is handed over; and a reproduction case written by the engine for any macro is turned into a macro which means the same with the preprocessed header in place of its own.", "quantifier": "for all command lines, headers, texts of cxx.h, macros accepted by the parser, outcomes of the commands of the script", "why_tests_cant": "the tests of the tool need creduce and clang, run a handful of command lines without definitions, names or blanks, and only look whether the run ends", "anchors": ["tools/reduce/src/main.rs:238-358", "tools/reduce/src/main.rs:400-471", "tools/reduce/src/main.rs:473-545", "tools/reduce/src/main.rs:586-593", "engine/src/lib.rs:565-582"]}
{"id": "C95", "title": "A build from a build script hands everything it was given to the parser, bindgen, the generators and the compiler", "statement": "Each option of the builder has the value it was last set to, whatever other options are set in between. If a build succeeds, every include_cpp block of the file was given to bindgen with all include directories, the directory of generated headers and the extra arguments, and converted with the chosen options; its bindings are written where the macro looks for them; every generated header and implementation of every block and cxx::bridge is written, every implementation is compiled exactly once, from a file of its own, with all include directories; the files listed are those written. A file without blocks and bridges is an error saying so.", "quantifier": "for all files, include directories, sequences of option calls, environments, and behaviours of bindgen, the conversion and cxx's generator", "why_tests_cant": "Tests build one file with one block and a fixed set of options; files with several blocks in nested modules mixed with bridges, and all orders of options, are unboundedly many.", "anchors": ["engine/src/builder.rs:104-194", "engine/src/builder.rs:221-301", "engine/src/parse_file.rs:355-369", "engine/src/cxxbridge.rs:37-44"]}
{"id": "C96", "title": "A build records every header it depends on", "statement": "When the generation for a file succeeds, cargo has been told to rerun the build if any file changes which bindgen read for any block of the file, of each such file exactly once and of no other; the same files are added to the dependency file of the command line tool. Files read for a block whose generation fails are recorded too.", "quantifier": "for all files with any number of blocks, all sets of files read for each block, and all outcomes of bindgen and conversion", "why_tests_cant": "No test looks at the recorded dependencies of several blocks; which files are shared between blocks and where a failure happens are unboundedly many cases.", "anchors": ["gen/build/src/lib.rs:34-53", "engine/src/parse_file.rs:371-423", "engine/src/parse_callbacks.rs:270-274", "gen/cmd/src/main.rs:455-460"]}
{"id": "C97", "title": "Rust items marked for C++ are exported or refused", "statement": "An item which the compiler accepts with the attribute extern_rust_type or extern_rust_function is left unchanged by it and is exported to C++ by the engine under its path, wherever in the modules of the file it is, or is an error of the engine; other items are refused by the compiler.", "quantifier": "for all items, places in modules, impl blocks and traits", "why_tests_cant": "Tests mark a few items in a few places; the agreement between two separate programs, the macro and the search, must hold for all items and places.", "anchors": ["macro/src/lib.rs:84-131", "engine/src/ast_discoverer.rs:85-162", "engine/src/ast_discoverer.rs:331-361"]}
{"id": "C98", "title": "Additional headers can be included repeatedly and together", "statement": "A generated additional header read by a C++ preprocessor gives all of its content the first time and nothing but comments afterwards; and headers of different blocks, which have different names, do not hide each other's content.", "quantifier": "for all options, inclusions and lists of APIs for which headers are generated, all sets of macros defined before, and all pairs of blocks", "why_tests_cant": "Tests compile each header alone and with a fixed set of APIs; the claim is about every header that can be generated, read after any other.", "anchors": ["engine/src/conversion/codegen_cpp/mod.rs:227-262", "engine/src/lib.rs:763", "gen/cmd/src/main.rs:383-385"]}
{"id": "C99", "title": "The preprocessed header written for reports is the headers of the block", "statement": "When AUTOCXX_PREPROCESS or AUTOCXX_REPRO_CASE is set, what is written is what clang makes, with the block's include directories and arguments, of the block's headers unchanged, the standard headers cxx's code needs and cxx's header, with the configuration in a comment of which the compiler sees nothing; both files get the same header, and nothing is written unless asked for.", "quantifier": "for all configurations, headers, include directories, arguments, values of the two variables and results of clang", "why_tests_cant": "No test sets these variables; the claim is about every configuration text and every header.", "anchors": ["engine/src/lib.rs:551-641"]}
{"id": "C100", "title": "There is one implementation of each trait for each type", "statement": "The keys by which methods of traits are gathered are equal exactly if type, trait and unsafety are the same; equal keys hash alike and different ones give the hasher different bytes; and so, whatever the hasher, the methods in a namespace are gathered into one implementation for each trait and type, which has exactly the methods of that trait for that type in order.", "quantifier": "for all texts of types and traits, all hashers and all lists of methods", "why_tests_cant": "A key whose hash disagrees with its equality fails for some hasher states only, and Rust's hashers are seeded at random; tests see a few keys.", "anchors": ["engine/src/conversion/api.rs:106-144", "engine/src/conversion/codegen_rs/mod.rs:320-351"]}
{"id": "C101", "title": "The engine and the library agree on C++'s integers", "statement": "For every name of one of C++'s integers of unspecified length, void or char16_t, the Rust type used by generated code is a wrapper which the library defines, its content stands for that C++ type, and the identifier by which cxx checks it is the name given to that C++ type in the additional header; no two wrappers share a name or identifier.", "quantifier": "for all qualified names", "why_tests_cant": "Tests use a few of these types; a wrong pair is a silent change of width on some platforms only.", "anchors": ["src/lib.rs:450-526", "engine/src/known_types.rs:482-505", "engine/src/conversion/codegen_cpp/mod.rs:641-644"]}
{"id": "C102", "title": "The macro hands on what the build script reads", "statement": "The include_cpp macro hands to the procedural macro exactly the tokens which the build script reads from the file, and accepts every macro call which the build script accepts.", "quantifier": "for all token sequences, all lists of headers and all directives with any arguments", "why_tests_cant": "Tests expand the macro for the calls they contain; the claim is about all calls, and a difference shows only as a failing compilation of a user's crate after a successful build script.", "anchors": ["src/lib.rs:105-441", "parser/src/directives.rs:37-123", "parser/src/config.rs:234-270"]}
