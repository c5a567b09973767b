{"id": "C01", "title": "Hash table behaves as a map", "statement": "After any sequence of initialize, add_hash_key and clear calls, table_value(k) returns the object added under key k (or an error if there is none), adding a key that is present is an error that changes nothing, and num_values equals the number of stored keys.", "quantifier": "every table size exponent, every operation sequence and every key string", "why_tests_cant": "Correctness under arbitrary hash collisions and chain shapes depends on all key sets; tests sample a handful of non-colliding names.", "anchors": ["src/ccpp_hash_table.F90:ccpp_hash_table_t:hash_table_initialize_table,hash_table_add_hash_key,hash_table_table_value,hash_table_clear_table,hash_table_num_values"]}
{"id": "C02", "title": "Hash function always addresses a valid bucket", "statement": "The bucket computed for any key by any initialised table lies between 1 and the table size, so lookups and insertions never index outside the table.", "quantifier": "every key string and every table size exponent", "why_tests_cant": "Out-of-range depends on the bit pattern of arbitrary strings; needs a proof over all keys.", "anchors": ["src/ccpp_hash_table.F90:hash_table_key_hash"]}
{"id": "C03", "title": "Hash table iteration visits every entry exactly once", "statement": "An iterator started on a table and advanced while valid yields each stored object exactly once and then becomes invalid, without ever reading outside the table, also when the table holds no entries.", "quantifier": "every reachable table (including the empty one)", "why_tests_cant": "Chain shapes and the position of the last non-empty bucket vary with the keys; the empty-table case is never exercised.", "anchors": ["src/ccpp_hash_table.F90:hash_iterator_initialize,hash_iterator_next_entry,hash_iterator_valid,hash_iterator_value"]}
{"id": "C04", "title": "Locking the constituent table assigns a dense, advected-first index set", "statement": "lock_table gives the n registered constituents distinct indices 1..n, every advected constituent has a smaller index than every non-advected one, the reported number of advected constituents is exact, and const_index(name) is the index of the constituent registered under that name.", "quantifier": "every set of registered constituents and every hash order", "why_tests_cant": "The result depends on hash iteration order and on the mixture of advected and non-advected constituents.", "anchors": ["src/ccpp_constituent_prop_mod.F90:ccp_model_const_table_lock,ccp_model_const_index,ccp_model_const_num_match"]}
{"id": "C05", "title": "Constituent table protocol", "statement": "In every call history, a constituent is accepted by new_field only while the table is initialised and unlocked; after lock_table no registration changes the set of constituents; lock_data only succeeds on a locked table; after reset and initialize_table the object is as usable as a new one.", "quantifier": "every history of initialize_table, new_field, lock_table, lock_data, reset calls", "why_tests_cant": "Histories are unbounded; tests run the single happy path once.", "anchors": ["src/ccpp_constituent_prop_mod.F90:ccp_model_const_okay_to_add,ccp_model_const_add_metadata,ccp_model_const_initialize,ccp_model_const_table_lock,ccp_model_const_data_lock,ccp_model_const_reset"]}
{"id": "C06", "title": "Registering a constituent twice", "statement": "Registering a constituent whose standard name is already registered leaves the table unchanged; it reports success exactly when the new properties agree with the registered ones and an error otherwise.", "quantifier": "every registered set and every new constituent", "why_tests_cant": "Quantifies over all pairs of property records.", "anchors": ["src/ccpp_constituent_prop_mod.F90:ccp_model_const_add_metadata,ccp_is_match"]}
{"id": "C07", "title": "Constituent properties object lifecycle", "statement": "instantiate on an already instantiated object reports an error and leaves the object as it was; an object that is deallocated and instantiated again has exactly the properties a fresh object instantiated with the same arguments would have; an index can be assigned at most once.", "quantifier": "every history of instantiate, deallocate, setters and set_const_index on one object", "why_tests_cant": "Stale state only shows up for particular histories.", "anchors": ["src/ccpp_constituent_prop_mod.F90:ccp_instantiate,ccp_deallocate,ccp_set_const_index,ccp_set_minimum,ccp_set_molar_mass,ccp_set_water_species"]}
{"id": "C08", "title": "Constituent field gather/scatter", "statement": "copy_in followed by copy_out restores the caller's array, and copy_in writes exactly the selected constituents (those with matching advected/thermo/water attributes), leaving all others unchanged.", "quantifier": "every locked table, every field array and every attribute filter", "why_tests_cant": "Index arithmetic must be right for every filter and every constituent ordering.", "anchors": ["src/ccpp_constituent_prop_mod.F90:ccp_model_const_copy_in_3d,ccp_model_const_copy_out_3d,ccp_model_const_is_match"]}
{"id": "C09", "title": "Generated suite caps enforce the suite state machine", "statement": "For every history of calls to the generated phase entry points, a call runs schemes only if the suite is in the state the phase requires (register and initialize: uninitialized; timestep_initial: initialized; run: in_time_step; timestep_final: in_time_step; finalize: initialized); otherwise it returns a non-zero error code and neither calls a scheme nor changes the suite state or suite data.", "quantifier": "every suite and every history of phase calls", "why_tests_cant": "Call histories are unbounded; tests run one good order and a few bad ones.", "anchors": ["scripts/suite_objects.py:Group.write", "scripts/ccpp_suite.py:Suite.write,CCPP_STATE_MACH", "scripts/ccpp_state_machine.py"]}
{"id": "C10", "title": "Scheme failure stops the phase", "statement": "When a scheme reports an error, no later scheme of the phase is called and the error code is returned unchanged; schemes before it ran in suite order. A phase that failed does not leave the suite in the state of a successful one.", "quantifier": "every suite, every group call list and every failing scheme position", "why_tests_cant": "The failing position and suite shape are unbounded.", "anchors": ["scripts/suite_objects.py:Scheme.write,Group.write,Subcycle.write"]}
{"id": "C11", "title": "Suite-owned variables are allocated and deallocated in balance", "statement": "In every history of phase calls on a generated suite, suite-owned data is never allocated when already allocated nor deallocated when not, it is allocated whenever a run-phase scheme executes, and none is left after a successful finalize.", "quantifier": "every suite and every history of calls", "why_tests_cant": "A double allocation is a Fortran runtime abort that only specific histories trigger.", "anchors": ["scripts/suite_objects.py:Group.write", "scripts/ccpp_suite.py:Suite.write"]}
{"id": "C12", "title": "Suite variable queries return exactly the required variables", "statement": "The generated ccpp_physics_suite_variables routine returns, for each combination of the input and output flags, a list with exactly the suite's variables of the requested intents, each once, and never writes beyond the allocated list.", "quantifier": "every partition of host variables into input, output and inout, with and without DDT elements, and all flag combinations", "why_tests_cant": "Depends on the relation of six arbitrary sets.", "anchors": ["scripts/ccpp_suite.py:API.write_req_vars_sub"]}
{"id": "C13", "title": "At most one branch of each preprocessor conditional is active", "statement": "For every #if/#elif.../#else/#endif chain, the lines of at most one branch are processed: the first whose condition is true, or the #else branch if there is none.", "quantifier": "every chain length and every valuation of the conditions", "why_tests_cant": "Chains are unbounded; the doctests never run a whole chain.", "anchors": ["scripts/parse_tools/preprocess.py:PreprocStack.process_line,enter_region,modify_region,exit_region,in_true_region"]}
{"id": "C14", "title": "Preprocessor regions nest properly", "statement": "A line is processed exactly when every enclosing conditional branch is active; leaving a conditional restores the state before it whatever happened inside; an #endif (or #else/#elif) without an open conditional is reported as a syntax error.", "quantifier": "every nesting depth and every line sequence", "why_tests_cant": "Nesting is unbounded.", "anchors": ["scripts/parse_tools/preprocess.py:PreprocStack"]}
{"id": "C15", "title": "Preprocessor conditions are evaluated as in C", "statement": "process_if_line evaluates conditions built from defined(X), !, && and || to their Boolean value in the given set of definitions, for any number of operands.", "quantifier": "every expression and every set of definitions", "why_tests_cant": "Expressions are an unbounded inductive set.", "anchors": ["scripts/parse_tools/preprocess.py:preproc_item_value,preproc_bool"]}
{"id": "C16", "title": "Unit conversions are mutually inverse", "statement": "For every supported pair of units, converting from A to B and back from B to A gives the original value (in exact arithmetic), and the two conversions are strictly increasing (orientation preserving) affine maps.", "quantifier": "every supported unit pair and every value", "why_tests_cant": "Values range over all numbers.", "anchors": ["scripts/conversion_tools/unit_conversion.py"]}
{"id": "C17", "title": "Generated files are updated exactly when they changed", "statement": "After move_modified_files(src, dest) every file generated in src is in dest with the content generated in src, files whose content did not change are not touched, and (with remove_src) src is gone.", "quantifier": "every pair of directory contents", "why_tests_cant": "Content relation is arbitrary.", "anchors": ["scripts/file_utils.py:move_modified_files"]}
{"id": "C18", "title": "File list expansion terminates without duplicates", "statement": "create_file_list expands arbitrary (also mutually or self-including) .txt lists in finite time, includes no file twice, and keeps the order of first occurrence.", "quantifier": "every file system graph of include lists", "why_tests_cant": "Cyclic inclusion graphs are unbounded.", "anchors": ["scripts/file_utils.py:create_file_list,_create_file_list_int,add_unique_files"]}
{"id": "C19", "title": "Phase names of scheme subroutines are classified unambiguously", "statement": "Every subroutine name of the form <scheme>_<phase suffix> is attributed to exactly one phase and scheme name, the longest phase suffix wins (foo_timestep_init is timestep_initial of foo, never init of foo_timestep), independent of letter case; transition_match of unrelated names is None.", "quantifier": "every scheme name", "why_tests_cant": "Names are arbitrary strings.", "anchors": ["scripts/state_machine.py:StateMachine.function_match,transition_match,__setitem__,transitions", "scripts/ccpp_state_machine.py"]}
{"id": "C20", "title": "Identifier checks accept exactly the valid identifiers", "statement": "check_fortran_id and check_cf_standard_name accept a string exactly when it is a valid Fortran identifier (letter followed by letters, digits, underscores, at most max_len characters) respectively a lower-case standard name, and return it unchanged (lower-cased); everything else is rejected.", "quantifier": "every string", "why_tests_cant": "Strings are unbounded.", "anchors": ["scripts/parse_tools/parse_checkers.py:check_fortran_id,check_cf_standard_name,check_local_name"]}
{"id": "C21", "title": "Balanced parenthesis search", "statement": "check_balanced_paren(string, start) returns the positions of the first opening parenthesis outside quotes and of its matching closing one, or (-1,-1) when there is none; parentheses inside character context never count.", "quantifier": "every string", "why_tests_cant": "Nesting depth and quote placement are unbounded.", "anchors": ["scripts/parse_tools/parse_checkers.py:check_balanced_paren"]}
{"id": "C22", "title": "Line folding keeps generated Fortran lines within bounds and unchanged in content", "statement": "Whatever text FortranWriter.write is given, no emitted line is longer than one more than line_max (or two more than line_fill, if that is larger); a statement that offers a place to break every n columns, n fitting beside the indentation, is written as lines that the free-form continuation rules read back as the same statement up to blanks after separators; a comment is written as comment lines only; no character other than blanks and the marks & and ! is lost, added or moved; the lines of plain text start in the column of their indentation level, further in after a continued line; text whose lines fit is written line by line in order; and the recursion depth is bounded by the length of the text.", "quantifier": "every statement and every indent level", "why_tests_cant": "Break points depend on the positions of spaces, commas and quotes in arbitrary text.", "anchors": ["scripts/fortran_tools/fortran_write.py:FortranWriter.write,find_best_break"]}
{"id": "C23", "title": "Statement splitting at semicolons", "statement": "line_statements splits a source line exactly at the semicolons outside character context and comments; joining the pieces with semicolons gives back the line.", "quantifier": "every line", "why_tests_cant": "Quote and comment placement is arbitrary.", "anchors": ["scripts/fortran_tools/parse_fortran_file.py:line_statements"]}
{"id": "C24", "title": "Comma splitting respects parentheses", "statement": "Splitting a Fortran list at commas and reassembling parenthesised parts yields items each with balanced parentheses whose join gives back the list, splitting exactly at the depth-zero commas.", "quantifier": "every string", "why_tests_cant": "Nesting is unbounded.", "anchors": ["scripts/fortran_tools/parse_fortran.py:FtypeTypeDecl,Ftype.reassemble_parens"]}
{"id": "C25", "title": "Every physical source line is delivered once", "statement": "Reading a file with next_line yields every logical line in order, each physical line is part of exactly one logical line, continuation lines are joined, and after the last line the result is None for ever.", "quantifier": "every file and every continuation pattern", "why_tests_cant": "Files are unbounded.", "anchors": ["scripts/parse_tools/parse_object.py:ParseObject.curr_line,next_line"]}
{"id": "C26", "title": "Parse context regions are well nested", "statement": "In every sequence of enter_region and leave_region, a leave succeeds only for the innermost open region of the same type, a failed leave or enter reports an error, and module regions cannot nest.", "quantifier": "every history of region operations", "why_tests_cant": "Histories are unbounded.", "anchors": ["scripts/parse_tools/parse_source.py:ParseContext.enter_region,leave_region,regions,in_region"]}
{"id": "C27", "title": "A variable dictionary holds one variable per standard name", "statement": "In every history of add_variable and remove_variable calls, a dictionary never holds two variables with one standard name; a variable added is found by its standard name until removed; an add that fails changes nothing; lookups consult parents only when the local dictionary has no such variable.", "quantifier": "every history and every chain of parent dictionaries", "why_tests_cant": "Histories and parent chains are unbounded.", "anchors": ["scripts/metavar.py:VarDictionary.add_variable,remove_variable,find_variable"]}
{"id": "C28", "title": "Generated local names are unique", "statement": "When add_variable(gen_unique=True) resolves a local name collision, the new local name differs from all local names in the dictionary, so no two variables of a scope share a Fortran name.", "quantifier": "every history of additions", "why_tests_cant": "Needs three or more colliding variables.", "anchors": ["scripts/metavar.py:VarDictionary.add_variable,new_internal_variable_name"]}
{"id": "C29", "title": "Intents are merged soundly", "statement": "When variables with the same standard name are merged, the merged intent covers every use (in with out gives inout, equal intents stay), the result does not depend on the order of merging, and a protected variable is never merged with a writing intent.", "quantifier": "every sequence of merged intents", "why_tests_cant": "Sequences are unbounded.", "anchors": ["scripts/metavar.py:Var.adjust_intent"]}
{"id": "C30", "title": "Dimension matching yields a permutation", "statement": "When match_dimensions reports a match, the permutation lists for each needed dimension a distinct position of an offered dimension with the same meaning; when both lists agree element by element the permutation is the identity.", "quantifier": "every pair of dimension lists", "why_tests_cant": "Lists are unbounded and may contain repeats.", "anchors": ["scripts/suite_objects.py:SuiteObject.match_dimensions,dim_match,horiz_dim_match"]}
{"id": "C31", "title": "Default lower bounds are equivalent to none", "statement": "A dimension written 'ccpp_constant_one:n' and one written 'n' denote the same range, so each matches the other.", "quantifier": "every dimension name", "why_tests_cant": "Tests use identical spellings on both sides.", "anchors": ["scripts/suite_objects.py:SuiteObject.dim_match"]}
{"id": "C32", "title": "Variables reported compatible without transformation are interchangeable", "statement": "If VarCompatObj reports two variables equivalent then type, kind, units, vertical orientation and dimensions agree, so passing one for the other needs no conversion.", "quantifier": "every pair of variable descriptions", "why_tests_cant": "Property records are arbitrary.", "anchors": ["scripts/var_props.py:VarCompatObj"]}
{"id": "C33", "title": "Dimension transforms are mutually inverse", "statement": "Applying the forward dimension transform to an index list and then the reverse transform gives the original index list, and the transformed list addresses the same element: each position takes the index of the matching dimension, only the horizontal index is shifted by the chunk offset and only the vertical index is mirrored.", "quantifier": "every permutation and every index list", "why_tests_cant": "Permutations of unbounded rank.", "anchors": ["scripts/var_props.py:DimTransform.forward_transform,reverse_transform,reverse_perm"]}
{"id": "C34", "title": "Container strings round-trip", "statement": "decode_container(encode_container(...)) renders exactly the module, scheme, subroutine or type given; encode_container is injective on its argument lists.", "quantifier": "every module, type, scheme and subroutine name", "why_tests_cant": "Names are arbitrary strings (also with spaces).", "anchors": ["scripts/common.py:encode_container,decode_container,decode_container_as_dict"]}
{"id": "C35", "title": "DDT component references name the full path", "statement": "The call string of a variable inside nested derived types is host%inner%leaf with all intermediate components in order.", "quantifier": "every nesting depth of derived types", "why_tests_cant": "Nesting depth is unbounded.", "anchors": ["scripts/ddt_library.py:VarDDT.__init__,call_string,DDTLibrary.collect_ddt_fields"]}
{"id": "C36", "title": "Command-line definitions", "statement": "Each NAME, NAME=VALUE, -DNAME or -DNAME=VALUE given, as a list or as one string separated by commas or blanks, is recorded under NAME with its value, and later definitions win. A kind argument that is not NAME=SPEC is an error; otherwise the last SPEC of each name is kept and kind_phys is always defined, REAL64 unless given.", "quantifier": "every argument list", "why_tests_cant": "Argument lists are unbounded.", "anchors": ["scripts/framework_env.py:CCPPFrameworkEnv.__init__"]}
{"id": "C37", "title": "Datatable variable lists", "statement": "Variable-list queries on the datatable return, sorted and without duplicates, exactly the variables with the requested intents in the call lists of the requested suite's groups, on request without those marked protected there, in an ancestor dictionary or by the host; an unknown kind of query is an error, and a query ends unless the dictionaries' parents form a cycle. On a generated table, where no two groups of all suites share the name suite_group, these are exactly the variables of the non-empty groups of that suite.", "quantifier": "every datatable tree", "why_tests_cant": "Trees are arbitrary.", "anchors": ["scripts/ccpp_datafile.py:_retrieve_variable_list,_is_variable_protected"]}
{"id": "C38", "title": "Wrapped report lines keep their content", "statement": "A report line is broken only at spaces, loses nothing but blanks there, is indented as asked (two levels more after the first line), each line is as full as possible, and a line longer than the limit contains no space to break at.", "quantifier": "every line and width", "why_tests_cant": "Arbitrary text.", "anchors": ["scripts/ccpp_datafile.py:_format_line"]}
{"id": "C39", "title": "Variable tracking follows call order", "statement": "For a suite whose groups have different names, variable tracking lists, group by group and in call order (a subcycle as often as its count says), exactly the entry points of the called schemes whose metadata list the variable, with the intent declared there, and reports success exactly when the list is not empty; a called scheme without metadata is an error.", "quantifier": "every suite call tree", "why_tests_cant": "Suites are unbounded.", "anchors": ["scripts/ccpp_track_variables.py:create_var_graph"]}
{"id": "C40", "title": "Metadata property lines are split once", "statement": "A metadata line is split into properties at '|' and each property into name and value at its first '=', so values containing '=' survive and the pieces give back the line.", "quantifier": "every metadata line", "why_tests_cant": "Arbitrary text.", "anchors": ["scripts/metadata_table.py:MetadataSection.parse_variable,_parse_config_line,blank_metadata_line"]}
{"id": "C41", "title": "Suite call trees flatten in order; subcycles render", "statement": "The scheme list of a group is the in-order flattening of its parts, and every subcycle with an integer loop count is written as a loop executing its body that many times.", "quantifier": "every suite definition tree", "why_tests_cant": "Trees of unbounded depth.", "anchors": ["scripts/suite_objects.py:Group.schemes,Subcycle.loop,Subcycle.write"]}
{"id": "C42", "title": "Schema version selection", "statement": "find_schema_version accepts exactly the texts M.m with one dot whose parts are integers as int() reads them, M at least 1 and m at least 0, and returns both numbers; everything else is a CCPPError. Different versions select different schema file names.", "quantifier": "every version string", "why_tests_cant": "Arbitrary text.", "anchors": ["scripts/parse_tools/xml_tools.py:find_schema_version"]}
{"id": "C43", "title": "lock_table reports constituents that could not be indexed", "statement": "If a registered constituent does not receive the index of its position in the locked table (for example because it already carries an index), lock_table returns an error.", "quantifier": "every set of registered constituents, in every hash order", "why_tests_cant": "Depends on the order in which the hash table yields the constituents.", "anchors": ["src/ccpp_constituent_prop_mod.F90:ccp_model_const_table_lock,ccp_set_const_index"]}
{"id": "C44", "title": "Phases other than run refuse calls from a threaded region", "statement": "A group phase other than run that is called inside an active OpenMP parallel region returns an error before any scheme is called; the run phase may be called from there.", "quantifier": "every generated group, every phase, every number of threads and thread number", "why_tests_cant": "Behaviour depends on the thread number and on which phase was generated.", "anchors": ["scripts/suite_objects.py:Group.__thread_check,Group.write"]}
{"id": "C45", "title": "Unterminated conditionals are reported", "statement": "Reading a source file in which a preprocessor conditional is never closed reports an error.", "quantifier": "every source text", "why_tests_cant": "Texts are unbounded.", "anchors": ["scripts/parse_tools/preprocess.py:PreprocStack", "scripts/fortran_tools/parse_fortran_file.py:read_file"]}
{"id": "C46", "title": "#define and #undef take effect exactly in processed text", "statement": "After '#define NAME [VALUE]' in a processed place NAME is defined (with that value) and nothing else changes; '#undef NAME' removes it; in a place that is not processed neither has any effect.", "quantifier": "every name, value, definition set and region nesting", "why_tests_cant": "Arbitrary names and histories.", "anchors": ["scripts/parse_tools/preprocess.py:PreprocStack.process_line"]}
{"id": "C47", "title": "Symbols in conditions have their C meaning", "statement": "In an #if condition a symbol stands for its integer value, an undefined symbol counts as 0, and comparisons compare integers.", "quantifier": "every definition set and every comparison", "why_tests_cant": "Arbitrary expressions and definitions.", "anchors": ["scripts/parse_tools/preprocess.py:preproc_item_value,preproc_bool"]}
{"id": "C48", "title": "Tendency variables have the state variable's units per second", "statement": "A variable is accepted as the tendency of a state variable exactly when its units are the state variable's units followed by s-1.", "quantifier": "every pair of variable descriptions and unit text", "why_tests_cant": "Units are arbitrary text.", "anchors": ["scripts/var_props.py:VarCompatObj.__init__"]}
{"id": "C49", "title": "Kind conversions convert to the target's kind", "statement": "When two compatible variables of a type differ in kind, the generated assignment converts the right-hand side to the type and kind of the variable assigned to; when the kinds denote the same kind the right-hand side is unchanged.", "quantifier": "every pair of variable descriptions, kind table and right-hand side", "why_tests_cant": "Kind names and tables are arbitrary.", "anchors": ["scripts/var_props.py:VarCompatObj.forward_transform,reverse_transform,_get_kind_convstrs"]}
{"id": "C50", "title": "Locking data gives every constituent a field of its default value", "statement": "After any history that leaves the constituent table locked, a data lock with nc columns and nl layers succeeds, and the field array then holds, in index order, one nc x nl field per registered constituent filled with that constituent's default value; the minimum values are those of the constituents and the advected-data pointer covers exactly the fields of the advected constituents.", "quantifier": "all sets of property objects, all call histories on the constituents object, all column and layer counts", "why_tests_cant": "The order of fields depends on the hash table and on which constituents are advected, for every registered set.", "anchors": ["src/ccpp_constituent_prop_mod.F90: ccp_model_const_data_lock, ccp_field_data_ptr, ccp_advected_data_ptr"]}
{"id": "C51", "title": "A missing source file is reported", "statement": "create_file_list raises an error when a file named explicitly (with an allowed suffix) does not exist.", "quantifier": "all file systems, all lists of names", "why_tests_cant": "Tests name files that exist; the claim is about every missing name.", "anchors": ["scripts/file_utils.py: add_unique_files, check_for_existing_file, create_file_list"]}
{"id": "C52", "title": "A reported dimension match covers every offered dimension", "statement": "When match_dimensions reports a match, the dimension list to be used in the call has as many entries as the offered variable has dimensions.", "quantifier": "every pair of dimension lists and every phase", "why_tests_cant": "Lists are unbounded; tests use equal ranks.", "anchors": ["scripts/suite_objects.py:SuiteObject.match_dimensions"]}
{"id": "C53", "title": "Fortran literals are recognised exactly", "statement": "check_fortran_literal accepts a value for a type and kind exactly when it is a literal of that type with that kind suffix: signed digits for integer, a number with a decimal point for real and double precision, .true./.false. for logical, (a,b) with two reals or two integers for complex, quoted text for character.", "quantifier": "every value, type name and kind", "why_tests_cant": "Literals are unbounded strings.", "anchors": ["scripts/parse_tools/parse_checkers.py:check_fortran_literal"]}
{"id": "C54", "title": "References are recognised exactly", "statement": "check_fortran_ref (and check_local_name for a variable) accepts exactly the identifiers and the references name(sub,...) with one to seven subscripts, each an identifier, a colon or digits, blanks allowed, where no name or subscript is longer than max_len.", "quantifier": "every string and max_len", "why_tests_cant": "Strings, blanks and subscript lists are unbounded.", "anchors": ["scripts/parse_tools/parse_checkers.py:check_fortran_ref,check_local_name"]}
{"id": "C55", "title": "Unit strings are recognised exactly", "statement": "check_units accepts, after stripping, exactly: a list of letter words with optional integer powers (no leading zero, no plus) separated by single blanks; letter words joined by underscores (inner words of two letters or more); or 1. The text is returned unchanged.", "quantifier": "every string", "why_tests_cant": "Strings are unbounded.", "anchors": ["scripts/parse_tools/parse_checkers.py:check_units"]}
{"id": "C56", "title": "The error flag only chooses between raising and None", "statement": "For each checker, with error=True the call raises exactly when with error=False it returns None; otherwise both return the same value.", "quantifier": "every input of every checker", "why_tests_cant": "Must hold for every input string.", "anchors": ["scripts/parse_tools/parse_checkers.py:check_units,check_fortran_id,check_fortran_ref,check_dimensions"]}
{"id": "C57", "title": "Diagnostic names are recognised exactly", "statement": "check_diagnostic_id accepts exactly an optional identifier followed by an optional ${process} or ${scheme_name} with an optional word suffix; check_diagnostic_fixed exactly the identifiers; both reject everything when the other attribute is set.", "quantifier": "every string and other attribute", "why_tests_cant": "Strings are unbounded.", "anchors": ["scripts/parse_tools/parse_checkers.py:check_diagnostic_id,check_diagnostic_fixed"]}
{"id": "C58", "title": "Dimension lists are recognised exactly", "statement": "check_dimensions with error=True accepts exactly the lists whose items have at most three colon-separated parts, each empty, an integer, or an identifier within max_len; valid lists are accepted under either flag and lists with an item of more than three parts are refused.", "quantifier": "every list of strings", "why_tests_cant": "Lists and strings are unbounded.", "anchors": ["scripts/parse_tools/parse_checkers.py:check_dimensions"]}
{"id": "C59", "title": "Parenthesised lists are split at their commas", "statement": "fortran_list_match of text(a, b, ...)rest returns the stripped items in order, and None if there are several and one is blank.", "quantifier": "every list of items without commas, parentheses and quotes", "why_tests_cant": "Lists are unbounded.", "anchors": ["scripts/parse_tools/parse_checkers.py:fortran_list_match"]}
{"id": "C60", "title": "Type names are recognised exactly", "statement": "check_fortran_intrinsic accepts exactly the intrinsic type names in any case and double precision with any blanks; check_fortran_type also every registered derived type, whatever the registration order.", "quantifier": "every string and every history of registrations", "why_tests_cant": "Strings and registration histories are unbounded.", "anchors": ["scripts/parse_tools/parse_checkers.py:check_fortran_intrinsic,check_fortran_type,register_fortran_ddt_name"]}
{"id": "C61", "title": "Statement reader skips empty lines and ends", "statement": "read_statements returns the statements of the next logical line that contains at least one non-empty statement, returns None once the file is exhausted, and terminates on every file.", "quantifier": "every file, every position", "why_tests_cant": "The number of lines skipped is unbounded.", "anchors": ["scripts/fortran_tools/parse_fortran_file.py:read_statements"]}
{"id": "C62", "title": "Bounded error reporting of a file parse", "statement": "A ParseObject records each of the first 32 errors without moving; the 33rd records no message, reports that the maximum is exceeded and moves the reader to the end of the file, after which every next_line returns None; every later error raises.", "quantifier": "every file and every number of errors", "why_tests_cant": "The state depends on the history of errors.", "anchors": ["scripts/parse_tools/parse_object.py:ParseObject.add_syntax_err"]}
{"id": "C63", "title": "Scanning a free-form source line", "statement": "scan_free_line succeeds exactly for lines that are well formed in their context (no leading continuation mark or open quote unless continued, no ampersand in code unless only blanks or a comment follow, no quote left open unless continued), and then reports the column of the leading mark, the column of the continuation mark, the column of the first comment character outside quotes and the quote context at the end of the line.", "quantifier": "every line and every starting context", "why_tests_cant": "Quotes, comments and ampersands can occur anywhere.", "anchors": ["scripts/fortran_tools/parse_fortran_file.py:scan_free_line"]}
{"id": "C64", "title": "Merging of free-form continuation lines", "statement": "read_file of a free-form file whose lines do not end in a backslash applies the preprocessor and then moves each continued statement to its first line: the marks and the comments of continued lines are removed, blank and comment lines between are left alone, the continuation lines become empty, all other lines stay, the number of lines does not change, and a merged statement is not continued any more.", "quantifier": "every file, every pattern of continuation, comments, quotes and directives", "why_tests_cant": "Files and continuation patterns are unbounded.", "anchors": ["scripts/fortran_tools/parse_fortran_file.py:read_file,scan_free_line"]}
{"id": "C65", "title": "Merging of fixed-form continuation lines", "statement": "read_file of a fixed-form file moves columns 7 to 72 of each continuation line to the end of the statement it continues, ignores text after column 72, and leaves all other lines alone.", "quantifier": "every fixed-form file", "why_tests_cant": "Files and continuation patterns are unbounded.", "anchors": ["scripts/fortran_tools/parse_fortran_file.py:read_file,scan_fixed_line"]}
{"id": "C66", "title": "Long character constants survive folding", "statement": "A statement written by FortranWriter.write contains the same character constants after folding, whatever their length.", "quantifier": "every statement and every settings of the writer", "why_tests_cant": "Depends on where the constants fall relative to the line limits, for all lengths.", "anchors": ["scripts/fortran_tools/fortran_write.py:FortranWriter.write,find_best_break,_in_quote"]}
{"id": "C67", "title": "Folding never turns code into comment", "statement": "When a statement followed by a comment is folded, every part of the statement stays outside comments.", "quantifier": "every statement, comment, indentation and settings of the writer", "why_tests_cant": "Depends on the position of the comment relative to the target length.", "anchors": ["scripts/fortran_tools/fortran_write.py:FortranWriter.write,find_best_break,_in_quote"]}
{"id": "C68", "title": "Array reference split", "statement": "split_var_name_and_array_reference(name(ref)) returns name and (ref) for every reference with balanced parentheses, the split being before the shortest non-empty end with as many closing as opening parentheses; a name without reference is returned whole with no reference.", "quantifier": "every string", "why_tests_cant": "Nesting of parentheses is unbounded.", "anchors": ["scripts/common.py:split_var_name_and_array_reference"]}
{"id": "C69", "title": "Unit identifiers", "statement": "string_to_python_identifier returns only valid Python identifiers that are no keywords, accepts every unit made of words and signs that starts with a letter, and different units get different identifiers.", "quantifier": "every unit string", "why_tests_cant": "Injectivity ranges over all pairs of strings.", "anchors": ["scripts/common.py:string_to_python_identifier", "scripts/mkcap.py:Var.convert_to"]}
{"id": "C70", "title": "TeX escaping", "statement": "escape_tex puts one backslash before each of % _ & and changes nothing else, so that texts without backslashes can be told back from their escaped form.", "quantifier": "every text", "why_tests_cant": "The three replacements run one after the other over each other's output.", "anchors": ["scripts/common.py:escape_tex"]}
{"id": "C71", "title": "Components of derived types become findable once", "statement": "collect_ddt_fields adds every component of a derived-type variable, at any depth, under its standard name exactly once; it fails exactly when one of these standard names occurs twice or is already known to the dictionary or its parents, unless skip_duplicates asks to leave out the known ones.", "quantifier": "every library of derived types and every dictionary", "why_tests_cant": "Nesting depth, number of types and of components are unbounded.", "anchors": ["scripts/ddt_library.py:DDTLibrary.collect_ddt_fields", "scripts/metavar.py:VarDictionary.add_variable"]}
{"id": "C72", "title": "Continuation lines and the error limit of the metadata reader", "statement": "Reading a metadata file yields its logical lines in order: a physical line without its trailing blanks, joined to the next one when it ends in a backslash; at most 32 syntax errors are kept, the next one ends the reading of the file and one more raises.", "quantifier": "every list of lines, start line and number of errors", "why_tests_cant": "Runs of continued lines of any length; any number of errors.", "anchors": ["scripts/parse_tools/parse_object.py:ParseObject.curr_line,next_line,add_syntax_err"]}
{"id": "C73", "title": "A metadata file is read as written", "statement": "Parsing a metadata file succeeds exactly when its logical lines are comments followed by tables with different names, each a header with permitted properties followed by argument tables whose title and type fit the table (one at most unless it is a scheme) and whose variables carry permitted properties; the result lists exactly these tables, sections and variables, in order, with the last value set for every property.", "quantifier": "every list of lines, set of known derived types and answer of the property checkers", "why_tests_cant": "Files of any length with properties in any order.", "anchors": ["scripts/metadata_table.py:parse_metadata_file,MetadataTable.__init_from_file,MetadataSection.__init_from_file,parse_variable,check_array_reference,section_table_mismatch"]}
{"id": "C74", "title": "Scheme names are found without parsing", "statement": "The quick search for scheme names returns the values of the name property in the header of every table of a metadata file, in order; for a file the parser accepts whose last table has a section these are the names of its tables.", "quantifier": "every metadata file", "why_tests_cant": "Files of any length.", "anchors": ["scripts/metadata_table.py:find_scheme_names"]}
{"id": "C75", "title": "Every scheme's phase routines are called once", "statement": "In the register, initialize, timestep and finalize phases the suite calls, once each and in the order of the scheme library, exactly the routines of those schemes used in the suite that define the phase, provided no such routine has the name of a scheme.", "quantifier": "every scheme library, suite and phase", "why_tests_cant": "Any number of schemes, used any number of times.", "anchors": ["scripts/ccpp_suite.py:Suite.analyze,Suite.parse", "scripts/suite_objects.py:SuiteObject.has_item"]}
{"id": "C76", "title": "Static API dispatch", "statement": "ccpp_physics_<stage> executes, for the suite and (if given) the group whose names it is passed, that stage of that group, or of every group of the suite that exists in the stage, in suite-file order, for the given instance and nothing else; an unknown suite or group name executes nothing and returns error 1 with a message naming it.", "quantifier": "every list of suites and groups, every stage, instance and pair of names", "why_tests_cant": "The if/else chains are generated from any number of suites and groups.", "anchors": ["scripts/mkstatic.py:API.write,Suite.write", "scripts/common.py:CCPP_STAGES"]}
{"id": "C77", "title": "Life cycle of the groups of a static build", "statement": "For every instance, the init stage of a group calls its schemes only while the group is not initialised for that instance; the other stages call them only while it is; a group stays initialised for an instance until it is finalized for that instance.", "quantifier": "every history of API calls over any number of instances, every behaviour of the schemes", "why_tests_cant": "The saved flags depend on the whole history of calls of all instances.", "anchors": ["scripts/mkstatic.py:Group.write,Group.initialized_test_blocks,Group.initialized_set_blocks"]}
{"id": "C78", "title": "Calls before init are reported", "statement": "A timestep_init, run or timestep_finalize call for a group that is not initialised calls no scheme and returns an error to the host model.", "quantifier": "every history of API calls", "why_tests_cant": "Depends on the history of calls.", "anchors": ["scripts/mkstatic.py:Group.initialized_test_blocks,Group.sub,Suite.sub,API.sub"]}
{"id": "C79", "title": "Suite-level init and finalize schemes", "statement": "The scheme in the <init> element of a suite file runs whenever the suite is initialised, that in <finalize> whenever it is finalized.", "quantifier": "every history of API calls, every suite", "why_tests_cant": "Depends on the history of calls.", "anchors": ["scripts/mkstatic.py:Suite.parse,Group.write,Suite.write"]}
{"id": "C80", "title": "A failing scheme ends the static API call", "statement": "When a scheme returns a non-zero error code, nothing else is called, the API call returns that code and leaves it in the error flag, and the group is not marked initialised; when no scheme fails the call returns 0.", "quantifier": "every call in every history, every behaviour of the schemes", "why_tests_cant": "Failures can happen at any call of any history.", "anchors": ["scripts/mkstatic.py:Group.write,Suite.write,API.write"]}
{"id": "C81", "title": "Subcycles of a static build", "statement": "In the run stage a subcycle with loop=\"n\" calls its schemes in order n times, with loop counter 1 to n and loop extent n; in the other stages once; schemes without a routine for the stage are skipped.", "quantifier": "every group, loop extent and stage", "why_tests_cant": "Loop extents and numbers of schemes are unbounded.", "anchors": ["scripts/mkstatic.py:Group.write,Subcycle"]}
{"id": "C82", "title": "Wrapped argument lists keep every argument in order on lines of bounded length", "statement": "The argument lists the static build writes for scheme, group and suite calls contain every argument exactly once and in order (as \"name\" or \"name=name\"), separated by commas and Fortran continuations only, with no comma at the end unless more variables follow; a line is broken exactly when it holds more than 70 characters and arguments are left, so with Fortran names of at most 63 characters no line has more than 154 characters (provided the last argument does not also occur earlier).", "quantifier": "every non-empty list of argument names and both settings of the flag for following variables", "why_tests_cant": "The lists have no bound on their length; a test sees a few.", "anchors": ["scripts/mkstatic.py: create_argument_list_wrapped, create_argument_list_wrapped_explicit"]}
{"id": "C83", "title": "The statements around a scheme call convert units both ways and leave nothing behind", "statement": "In the static build, a scheme whose argument has other units than the host variable reads the host value converted to its units (unless it is intent(out)), and what it leaves is converted back (unless it is intent(in)); temporaries are freed and pointers to conditionally allocated variables are null again after the call, and a variable whose condition is false is passed as absent and not touched.", "quantifier": "every intent, rank, condition, conversion, scheme behaviour and prior state of the variable", "why_tests_cant": "A test fixes one intent and one condition; the states of temporary, pointer and host variable combine.", "anchors": ["scripts/mkstatic.py: Group.write", "scripts/ccpp_prebuild.py: compare_metadata"]}
{"id": "C84", "title": "Unit conversions of array sections apply to the section", "statement": "When the host variable is passed as an array section, the Fortran expression written for the unit conversion is the conversion formula applied to that section.", "quantifier": "every conversion formula of the table, every variable, kind and section text", "why_tests_cant": "The defect depends on the shape of the formula; a test of one conversion does not show the others.", "anchors": ["scripts/mkstatic.py: Group.write", "scripts/conversion_tools/unit_conversion.py"]}
{"id": "C85", "title": "Blocked data reach every scheme as one contiguous array and come back to their blocks", "statement": "In the init, timestep_init, timestep_finalize and finalize stages each scheme that uses a variable stored in blocks gets the concatenation of the blocks in its own units; what an intent(out) or intent(inout) scheme leaves goes back to the blocks, piece by piece, in the host's units, and an intent(in) scheme changes nothing. (The published behaviour: false when schemes of one group use the variable with different intents.)", "quantifier": "every block partition, every sequence of schemes with every intent and unit setting", "why_tests_cant": "The blocks may have any sizes and the schemes come in any order and mixture of intents.", "anchors": ["scripts/mkstatic.py: Group.write"]}
{"id": "C86", "title": "The intents declared for cap arguments are those of the uses", "statement": "A host variable is an intent(in) argument of a group function exactly when every scheme use in that stage only reads it (index uses included), it is intent(out) only when every use only writes it, and the suite function merges the groups' intents in the same way; a component written by a scheme does not make the whole derived type intent(out).", "quantifier": "every list of uses in a group and every list of groups", "why_tests_cant": "Any number and order of uses; the declared intent decides what the compiler may do with the host data.", "anchors": ["scripts/mkstatic.py: Group.write, Suite.write"]}
{"id": "C87", "title": "The build-system file lists follow the last run", "statement": "After ccpp_prebuild.py has completed, the generated makefile, cmakefile and shell snippet of typedefs, schemes and caps each list exactly the files of this run, in sorted order and independent of the order in which they were found, whatever earlier runs with other lists left behind, and no temporary file remains; also if an earlier run was killed at any point.", "quantifier": "every history of complete runs with any lists of file names, every initial content of the three files with no makefile, every kill point and partial write", "why_tests_cant": "The update is skipped when only the makefile is unchanged, so the two other files depend on the whole history of runs and on where a run was killed; tests run once into an empty directory.", "anchors": ["scripts/ccpp_prebuild.py:generate_typedefs_makefile", "scripts/ccpp_prebuild.py:generate_schemes_makefile", "scripts/ccpp_prebuild.py:generate_caps_makefile", "scripts/mkcap.py:SchemesMakefile", "scripts/mkcap.py:CapsCMakefile"]}
{"id": "C88", "title": "Generated caps are rewritten exactly when needed", "statement": "After a complete run of ccpp_prebuild.py every group cap, suite cap, the static API and its include file hold the newly generated text whatever was there before; if all were up to date none is rewritten; and if a group cap is rewritten then so are its suite's cap, the API and the include file, so a suite cap is never older than one of its group caps.", "quantifier": "every prior content of the files, every number of suites and groups, every history of runs and every kill point", "why_tests_cant": "Which file is rewritten depends on the contents of all others and on the history of runs, including killed ones; a test sees one state.", "anchors": ["scripts/mkstatic.py:Group.write", "scripts/mkstatic.py:Suite.write", "scripts/mkstatic.py:API.write", "scripts/mkstatic.py:API.write_includefile", "scripts/ccpp_prebuild.py:generate_suite_and_group_caps"]}
{"id": "C89", "title": "Requested variables agree with those of the host", "statement": "If ccpp_prebuild.py accepts the metadata of the schemes and of the host, every variable any scheme asks for is defined exactly once by the host, with the same type, rank and kind (character variables may leave the length open), and the caps are generated with the name the host uses for it; if one such variable is missing, ambiguous or different, the run fails; the order of the scheme files does not matter; and the modules used by the caps are exactly those of the matched host variables, each once.", "quantifier": "every set of scheme files, argument tables and variables, every host definition and order of files", "why_tests_cant": "The comparison is between every pair of requests of a variable and the host, merged file by file; a test checks a few pairs in one order.", "anchors": ["scripts/metadata_parser.py:merge_dictionaries,parse_scheme_tables", "scripts/mkcap.py:Var.compatible", "scripts/ccpp_prebuild.py:collect_physics_subroutines,compare_metadata"]}
{"id": "C90", "title": "Unit conversions are registered for exactly the requests that need them", "statement": "After a successful comparison every request with units other than those of the host has the conversion host-to-scheme if the scheme reads the variable and scheme-to-host if it writes it, both for inout, and no request with equal units has one; each conversion expresses the same physical quantity in the other units, the two directions undo each other, and a missing conversion stops the run.", "quantifier": "every request, host variable, pair of units and numeric value", "why_tests_cant": "Values are rational numbers and the pairs of units are those of the whole table; a test converts a few numbers.", "anchors": ["scripts/ccpp_prebuild.py:compare_metadata", "scripts/mkcap.py:Var.convert_to,Var.convert_from", "scripts/conversion_tools/unit_conversion.py"]}
{"id": "C91", "title": "A suite definition file is read as written", "statement": "Reading a valid suite definition file gives exactly its groups, subcycles, loop counts and schemes in the order of the file, and the recorded schemes and routines are exactly those of its groups; a file whose name does not match the suite, or a suite name of more than 37 characters, is refused.", "quantifier": "every suite definition file (any number of groups, subcycles and schemes)", "why_tests_cant": "The loop count is carried from one subcycle to the next, so the result depends on all of the file.", "anchors": ["scripts/mkstatic.py:Suite.parse"]}
{"id": "C92", "title": "The variables of the suites are kept and the others dropped", "statement": "ccpp_prebuild.py keeps a requested variable, with all its requests, exactly when one of the routines that ask for it belongs to a scheme of a chosen suite.", "quantifier": "every set of requests, every scheme name and every list of suites", "why_tests_cant": "Routine names are recovered from the text of the container and abbreviated by text replacement, which depends on the spelling of every scheme name.", "anchors": ["scripts/ccpp_prebuild.py:filter_metadata", "scripts/common.py:CCPP_STAGES,decode_container"]}
{"id": "C93", "title": "The files to compile are those of the suites", "statement": "The run is refused exactly when a scheme of a chosen suite has no argument table; otherwise the list of files to compile has, once each, the file of every scheme of the chosen suites, the files these schemes depend on and those the definitions of the host depend on, and nothing else.", "quantifier": "every set of scheme files, dependencies and suites", "why_tests_cant": "All combinations of suites, files and shared dependencies.", "anchors": ["scripts/ccpp_prebuild.py:collect_physics_subroutines,check_schemes_in_suites,filter_metadata,generate_list_of_schemes_and_dependencies_to_compile"]}
{"id": "C94", "title": "The list of type-definition modules is complete", "statement": "The list of modules with type definitions that ccpp_prebuild.py writes for the build system has, once each, the lower-case name with ending .mod of the module of every host variable that defines a derived type or a kind, and no other; the step fails exactly when one of them is not defined in a module.", "quantifier": "every host metadata dictionary", "why_tests_cant": "Any number of definitions in any order and mixture.", "anchors": ["scripts/ccpp_prebuild.py:generate_typedefs_makefile"]}
{"id": "C95", "title": "Scheme arguments agree with their metadata", "statement": "ccpp_capgen accepts a scheme routine exactly when its Fortran argument list has the variables of the metadata in the same order, with the same type, kind, intent, optional attribute and dimensions (names without case), followed only by optional arguments the metadata does not mention; otherwise it reports the difference.", "quantifier": "every metadata table and Fortran argument list of any length", "why_tests_cant": "All combinations of differences, positions and numbers of arguments; a test tries a few tables.", "anchors": ["scripts/ccpp_capgen.py:compare_fheader_to_mheader,var_comp,dims_comp,find_var_in_list", "scripts/metadata_table.py:convert_dims_to_standard_names"]}
{"id": "C96", "title": "Host and type definitions agree with their metadata", "statement": "For an accepted module, host or derived-type table every variable of the metadata is declared in the Fortran source with the same type, kind and rank.", "quantifier": "every metadata table and Fortran declaration list of any length and order", "why_tests_cant": "All combinations of differences, positions and array references.", "anchors": ["scripts/ccpp_capgen.py:compare_fheader_to_mheader"]}
{"id": "C97", "title": "All routines of a file are checked", "statement": "A metadata file is accepted only if every header in it is paired with a routine or type of the same name in the Fortran file, no two with the same one, every pair agrees, and no routine or type with documented variables is left over; and if such a pairing exists and names are unique the file is accepted, in whatever order the headers come.", "quantifier": "every list of metadata headers and Fortran headers in any order", "why_tests_cant": "All orders and numbers of headers.", "anchors": ["scripts/ccpp_capgen.py:check_fortran_against_metadata"]}
{"id": "C98", "title": "Table names are unique across files", "statement": "When the metadata files of schemes or host have been read, the result holds all their tables and headers in order, no table or header name occurs twice, and every file agreed with its Fortran source; a name that occurs twice anywhere stops the run.", "quantifier": "every list of files with any tables", "why_tests_cant": "A duplicate may be in any two of any number of files.", "anchors": ["scripts/ccpp_capgen.py:parse_scheme_files,parse_host_model_files,duplicate_item_error"]}
{"id": "C99", "title": "Clean removes the generated files", "statement": "ccpp_capgen --clean removes the files the last run generated and the list of them, and no other file.", "quantifier": "every file list and every state of the file system", "why_tests_cant": "Any listed names, comments, relative paths and existing files.", "anchors": ["scripts/ccpp_capgen.py:clean_capgen,delete_pathnames_from_file,_main_func"]}
{"id": "C100", "title": "The Fortran file of a metadata file", "statement": "The Fortran file for base.meta is the first of base.F90, base.f90, base.F, base.f that exists; if there is none the run stops.", "quantifier": "every file name (with any dots in it) and every set of existing files", "why_tests_cant": "Any names and any subset of existing files.", "anchors": ["scripts/ccpp_capgen.py:find_associated_fortran_file"]}
{"id": "C101", "title": "The datatable file holds the tree that was generated", "statement": "Whatever tree PrettyElementTree writes, the file is one XML document, readable in only one way, whose elements have the same tags, attributes, order and nesting; a leaf has its text without surrounding white space and no text is lost.", "quantifier": "all element trees with XML names and document characters, any depth, any texts and attribute values (with characters that need escaping)", "why_tests_cant": "Trees are unbounded and the writer re-scans the serialised text with regular expressions; examples cover a few shapes.", "anchors": ["scripts/parse_tools/xml_tools.py: PrettyElementTree.write, beg_tag_re, end_tag_re, simple_tag_re"]}
{"id": "C102", "title": "Exactly which trees the datatable writer can write", "statement": "The pretty writer succeeds exactly when every empty element has no slash in an attribute value and every other element has an attribute or a tag of at least two characters; otherwise it raises. (So 'every tree can be written' is false.)", "quantifier": "all element trees with XML names and document characters", "why_tests_cant": "It is an equivalence over all trees; the failing shapes do not occur in the test datatables.", "anchors": ["scripts/parse_tools/xml_tools.py: PrettyElementTree.write, PrettyElementTree._inc_pos"]}
{"id": "C103", "title": "File and suite queries return what was generated", "statement": "After the datatable is generated, written, and read back, the ccpp_files, utility_files, host_files and suite_files reports list exactly the files given to the generator, in order, and suite_list the suites in order.", "quantifier": "all generator inputs, all separators; file names not blank and without surrounding white space", "why_tests_cant": "The statement ranges over every run of generator, writer, XML reader and report; tests query two stored tables.", "anchors": ["scripts/ccpp_datafile.py: generate_ccpp_datatable, _add_generated_files, _retrieve_ccpp_files, _retrieve_suite_list, datatable_report"]}
{"id": "C104", "title": "The dependency query lists every dependency once", "statement": "The dependencies report on the datatable of a run lists the host and scheme dependencies, each once, in sorted order, and nothing else.", "quantifier": "all generator inputs and separators, all dependency sets in any order", "why_tests_cant": "Ranges over all sets and set iteration orders.", "anchors": ["scripts/ccpp_datafile.py: _add_dependencies, _retrieve_dependencies, datatable_report"]}
{"id": "C105", "title": "Module and process queries", "statement": "The module_list report lists each non-empty module of the metadata of a scheme entry point in use, once and sorted; the process_list report lists process=scheme for exactly the entry points whose metadata gives a process, sorted. (That each scheme appears once in process_list is false.)", "quantifier": "all generator inputs: any schemes, phases, groups and headers", "why_tests_cant": "Ranges over all suites and metadata; the repetition only shows for a scheme with two entry points that state a process.", "anchors": ["scripts/ccpp_datafile.py: _new_scheme_entry, _retrieve_module_list, _retrieve_process_list"]}
{"id": "C106", "title": "Every argument of every scheme has exactly one source", "statement": "After a suite is analysed, each argument a scheme passes is exactly one of: a dummy argument of its group (when the host provides the standard name), a variable declared by the group (when only this group uses it, or it is a loop variable), or a variable of the suite module (when several groups use it); nothing else is declared, and writing any call finds all its actual arguments.", "quantifier": "all hosts with the error variables, all suites: any groups, schemes, arguments, phases, and any compatibility relation", "why_tests_cant": "It ranges over every suite, group order and host; tests run a handful of suites.", "anchors": ["scripts/suite_objects.py: SuiteObject.match_variable, add_call_list_variable, Scheme.analyze, Group.manage_variable", "scripts/ccpp_suite.py: Suite.find_variable, Suite.analyze"]}
{"id": "C107", "title": "A variable the host lacks is defined before it is used", "statement": "If analysis succeeds, the first use (in call order over the whole suite) of every variable the host does not provide is intent out or has a default value; conversely a suite with that property (agreeing names, loop variables provided, run phases, no protected arguments) is accepted.", "quantifier": "all hosts and suites; loop variables with substitutions excepted", "why_tests_cant": "It ranges over every suite, group order and host; tests run a handful of suites.", "anchors": ["scripts/suite_objects.py: Scheme.analyze", "scripts/ccpp_suite.py: Suite.analyze, Suite.find_variable"]}
{"id": "C108", "title": "The intent of a group dummy argument covers all its uses", "statement": "Each dummy argument of a group (other than loop variables) has the common intent of the uses by the schemes of the group, or inout when they differ; the error variables count as written by the group.", "quantifier": "all hosts and suites, any number of uses in any order", "why_tests_cant": "It ranges over every suite, group order and host; tests run a handful of suites.", "anchors": ["scripts/suite_objects.py: Scheme.update_group_call_list_variable", "scripts/metavar.py: Var.adjust_intent, VarDictionary.add_variable"]}
{"id": "C109", "title": "Fortran names within a group are distinct", "statement": "The variables a group declares, its dummy arguments and the suite variables have pairwise different Fortran names (without case) when schemes agree on names and the host has the loop variables. (Without such agreement it is false.)", "quantifier": "all hosts and suites", "why_tests_cant": "It ranges over every suite, group order and host; tests run a handful of suites.", "anchors": ["scripts/suite_objects.py: Group.manage_variable, SuiteObject.add_call_list_variable", "scripts/metavar.py: VarDictionary.add_variable, VarLoopSubst.add_local"]}
{"id": "C110", "title": "Uses of a variable are checked for compatibility", "statement": "Within a group, every later use of a host variable was found compatible with the dummy argument made for the first use. (That a use is compatible with the variable of the host, with uses in other groups or with a group variable, and that a protected host variable is not written, is false.)", "quantifier": "all hosts, suites and compatibility relations", "why_tests_cant": "It ranges over every suite, group order and host; tests run a handful of suites.", "anchors": ["scripts/suite_objects.py: SuiteObject.match_variable, add_call_list_variable", "scripts/metavar.py: VarDictionary.add_variable, Var.adjust_intent"]}
{"id": "C111", "title": "Loop variables: run phases only, and consistent bounds", "statement": "A suite that passes a loop variable in another phase is rejected. Before the calls of a group, extent = end - begin + 1 holds for the bounds schemes see, and host values are unchanged, if the host provides the extent alone, begin and end, end alone, or all three consistently. (For a host with the extent and only one of begin and end it is false.)", "quantifier": "all hosts, suites that do not write the bounds, and all integer values", "why_tests_cant": "It ranges over every suite, group order and host; tests run a handful of suites.", "anchors": ["scripts/suite_objects.py: SuiteObject.add_variable_to_call_tree, Group.register_action, Group.write", "scripts/metavar.py: VarLoopSubst, CCPP_VAR_LOOP_SUBSTS, CCPP_LOOP_VAR_STDNAMES"]}
{"id": "C112", "title": "The call of a scheme passes each argument once, by name", "statement": "The text of the call of a scheme is dummy=actual for every argument of its metadata in order, the actual being the name of the source of the argument, when no argument is optional. (With optional arguments it is false: the pointer passed need not exist.)", "quantifier": "all hosts and suites", "why_tests_cant": "It ranges over every suite, group order and host; tests run a handful of suites.", "anchors": ["scripts/suite_objects.py: CallList.call_string, Scheme.write, Group.write"]}
{"id": "C113", "title": "A Fortran declaration gives exactly its variables", "statement": "Parsing a declaration line in the usual form (intrinsic type with or without a kind, character with a length, type or class; any of the seventeen attributes in any case and spacing; names with or without dimensions and simple initial values; with the double colon, or without it when there are no attributes; comment at the end) yields one variable per declared name, in order, each with the type, kind, optional and allocatable flags, intent (in a scheme) and dimensions that the line says, its own dimensions taking precedence over the dimension attribute. Outside schemes an intent is an error, or ignored with a warning.", "quantifier": "all declaration lines of the grammar: every mixture of cases, blanks, attributes, names and comments, unbounded", "why_tests_cant": "the line is cut by searches for characters and regular expressions whose behaviour depends on the whole text; tests try a few spellings", "anchors": ["scripts/fortran_tools/parse_fortran.py: parse_fortran_var_decl, ftype_factory, Ftype, FtypeCharacter, FtypeTypeDecl"]}
{"id": "C114", "title": "Character declarations are recognised in every legal form", "statement": "A character declaration is parsed whether its length is given in parentheses, in the old style with an asterisk, or not at all. Proved: a length in parentheses (name without underscore, number, asterisk or colon) and the plain word before a double colon. False in the rest: with attributes but no length, in the old style, or without a double colon it is always rejected, and so is any length or kind containing an underscore.", "quantifier": "all lines beginning with the word character", "why_tests_cant": "the failures depend on greedy matching followed by a check of what is left, for every continuation", "anchors": ["scripts/fortran_tools/parse_fortran.py: FtypeCharacter, ftype_factory"]}
{"id": "C115", "title": "Derived type definitions are recognised with their attributes", "statement": "A line that defines a derived type, with attributes and double colon or in the short form, with or without parameters and comment, yields its name, its attributes in order and its parameters; a declaration type(name) and any statement not beginning with the word type yield nothing. (That nothing else is taken for a definition is false: an assignment to a variable whose name begins with type is, or ends in an IndexError.)", "quantifier": "all definition lines, all declarations, all other statements", "why_tests_cant": "string splitting on the whole line; unbounded texts", "anchors": ["scripts/fortran_tools/parse_fortran.py: FtypeTypeDecl.type_def_line, fortran_type_definition"]}
{"id": "C116", "title": "Statements that are not declarations declare nothing", "statement": "A statement that begins with none of the words of intrinsic types, nor with type or class followed by a parenthesis, yields no variables and no error. (That a statement whose first word merely begins with such a word yields none is false: an assignment realtime = 5 declares a variable time.)", "quantifier": "all statements, with any comment", "why_tests_cant": "ranges over all texts; the comment may hold anything", "anchors": ["scripts/fortran_tools/parse_fortran.py: parse_fortran_var_decl, ftype_factory"]}
{"id": "C117", "title": "Initial values do not change what is declared", "statement": "Two declarations with the same type, attributes, names and dimensions give the same variables whatever their initial values, blanks and comments. Proved for initial values without an equals sign, double colon, exclamation mark or comma outside parentheses; false for array constructors, comparisons and strings with such characters, which lose or invent variables or fail.", "quantifier": "all pairs of declarations of the grammar", "why_tests_cant": "a relation between all pairs of texts", "anchors": ["scripts/fortran_tools/parse_fortran.py: parse_fortran_var_decl, ftype_factory, Ftype, FtypeCharacter, FtypeTypeDecl"]}
{"id": "C118", "title": "The table of a documented routine lists exactly its dummy arguments", "statement": "For a documented subroutine in the contains part of a module, wherever it stands: if every dummy argument is declared with an intent exactly once and nothing else is (names compared without case), parsing the file yields, in its place, a table for the routine whose variables are the declared arguments in the order of the subroutine statement, each with its declared type, kind, intent and dimensions; in every other case (an argument without such a declaration, a declaration that is no argument, a duplicate) parsing raises an error.", "quantifier": "all modules, all routines before and after, all argument lists and bodies (one statement per line, perhaps internal procedures)", "why_tests_cant": "the set of files, argument orders and declaration orders is unbounded; tests see a few sample schemes", "anchors": ["scripts/fortran_tools/parse_fortran_file.py: parse_fortran_file, parse_module, parse_specification, parse_type_def, parse_preamble_data, parse_scheme_metadata"]}
{"id": "C119", "title": "A file with one module yields the tables of its types, its variables and its routines, in order", "statement": "Parsing a source file with one module returns the tables of the documented types, then the table of the module variables if anything was announced before contains, then the tables of the documented subroutines, all in the order of the file, and as additional routines exactly the undocumented subroutines in order.", "quantifier": "all files of one module with any specification part, any routines and any text before and after it without module statements", "why_tests_cant": "the theorem covers every module; tests cover sample files", "anchors": ["scripts/fortran_tools/parse_fortran_file.py: parse_fortran_file, parse_module, parse_specification, parse_type_def, parse_preamble_data, parse_scheme_metadata"]}
{"id": "C120", "title": "Files with several modules report everything every module contains", "statement": "Parsing a file of several modules returns the tables of all modules in order and the additional routines of all modules.", "quantifier": "all sequences of modules with text between them", "why_tests_cant": "needs all combinations of modules; the loss of the routines of all but the last module shows in no single-module test", "anchors": ["scripts/fortran_tools/parse_fortran_file.py: parse_fortran_file, parse_module, parse_specification, parse_type_def, parse_preamble_data, parse_scheme_metadata"]}
{"id": "C121", "title": "Modules and announcements are recognised as Fortran has them", "statement": "A module may end with end module with its name in any case or without a name and need not contain routines; an announced routine may follow its announcement directly; a file without a module gives no tables.", "quantifier": "all modules and files", "why_tests_cant": "each clause quantifies over all surrounding text", "anchors": ["scripts/fortran_tools/parse_fortran_file.py: parse_fortran_file, parse_module, parse_specification, parse_type_def, parse_preamble_data, parse_scheme_metadata"]}
{"id": "C122", "title": "The constituents of a generated host cap", "statement": "When every constituent of the suites is a state variable or is named tendency_of_<state variable>, generating the host cap fails iff a constituent is not on (horizontal, layer) dimensions or a tendency has no compatible state variable; otherwise the cap's array of names holds each state variable once, in alphabetical order, and each constituent is passed to the suite as the slice of the constituent array (of the tendency array for a tendency) at the index kept for its name. (Refuted beyond that: a name with tendency_of elsewhere is a constituent for the suite cap and a tendency for the host cap.)", "quantifier": "all lists of suites with any constituent variables, and any compatibility relation", "why_tests_cant": "The names and their combination over suites are unbounded; two pieces of generated code (suite cap and host cap) have to agree on each of them", "anchors": ["scripts/host_cap.py:add_constituent_vars", "scripts/constituents.py:ConstituentVarDict.find_variable"]}
{"id": "C123", "title": "Registration of constituents by a generated host cap", "statement": "Whatever registrations and clean-ups went before (without data initialisation), the generated registration routine called with constituent objects of the host and of the schemes fails iff two objects of one name (host, dynamic, suite) do not agree; otherwise every name offered has exactly one index, the first object of a name is the one used, advected constituents come first, and the cap's index of each of its names is the index of that constituent. (Refuted beyond that: with only run-time constituents the table is sized for zero entries.)", "quantifier": "all histories of registrations and clean-ups, all objects offered and all suites", "why_tests_cant": "It is a statement about all sequences of calls and all sets of objects, through a hash table", "anchors": ["scripts/constituents.py:ConstituentVarDict.write_host_routines", "scripts/constituents.py:ConstituentVarDict.write_suite_routines", "src/ccpp_constituent_prop_mod.F90:ccp_model_const_table_lock"]}
{"id": "C124", "title": "Queries of the constituents of one suite", "statement": "Once the number of constituents of a suite was asked for, that number, the constituent names and the copies of the constituents for the indices 1 to that number are those of the non-tendency constituents of the suite, in order, with errcode 0; a wrong index or an uninitialised suite is answered with an error code. (The last part is refuted for every suite that has constituents: the routines set the error code and read the array all the same.)", "quantifier": "all suites, all indices, all histories of the suite cap", "why_tests_cant": "All indices, including those outside the array, and all suites", "anchors": ["scripts/constituents.py:ConstituentVarDict.write_suite_routines", "scripts/constituents.py:ConstituentVarDict._write_init_check", "scripts/constituents.py:ConstituentVarDict._write_index_check"]}
{"id": "C125", "title": "Registering again after a clean-up", "statement": "After the clean-up routine of a host cap, constituents can be registered again and the indices of the earlier registration are forgotten. (Refuted once the data was initialised: no registration ever succeeds again; the indices stay. Without data, each registration has the outcome it would have in a new cap.)", "quantifier": "all histories of a cap", "why_tests_cant": "A statement about all later histories", "anchors": ["scripts/constituents.py:ConstituentVarDict.write_host_routines", "src/ccpp_constituent_prop_mod.F90:ccp_model_const_reset"]}
{"id": "C126", "title": "Dispatch in the generated host cap", "statement": "The generated <host>_ccpp_physics_run, called with the names of a suite and of a group of its suite file (trailing blanks ignored), calls exactly the subroutine <suite>_<group>, once, and returns its error code; the routines of the other stages call exactly <suite>_<stage>; the called name is imported from the cap module of the suite; for any other suite or group name nothing is called, no module data changes and the error code is 1. (Refuted beyond that: a group named like a phase can never be run; if all groups of a suite are so named the run routine is not Fortran; suites a and a_b with groups b_c and c import one name from two modules.)", "quantifier": "all lists of suites and groups, all stages, all argument strings, all behaviours of the suite parts", "why_tests_cant": "The generated text depends on the list of suites and its meaning on the strings passed; both are unbounded", "anchors": ["scripts/host_cap.py:write_host_cap", "scripts/host_cap.py:suite_part_list", "scripts/host_cap.py:suite_part_call_list", "scripts/ccpp_suite.py:Suite.is_run_group"]}
{"id": "C127", "title": "Arguments passed by the generated host cap", "statement": "A stage is generated iff every dummy argument of every part of every suite is a host variable or a constituent and constituent property arrays occur only in the register stage, with distinct names; then every call made passes each non-constant dummy argument of the part exactly once, by keyword, in order: the host variable of its standard name if there is one, else the constituent. (Refuted for loop variables of phases other than run: they are declared by the phase but not passed.)", "quantifier": "all suites, parts and argument lists, all host and constituent dictionaries", "why_tests_cant": "Ranges over all metadata: which variables each part uses and which dictionary supplies them", "anchors": ["scripts/host_cap.py:write_host_cap", "scripts/host_cap.py:suite_part_list", "scripts/host_cap.py:suite_part_call_list", "scripts/ccpp_suite.py:Suite.is_run_group"]}
{"id": "C128", "title": "Registration of run-time constituents through the host cap", "statement": "When no other suite has run-time constituents, registering a suite calls its register phase once and leaves in the array of the suite the concatenation of the arrays it returned, in the order of its arguments, and changes nothing else; if the phase returns an error that error is returned and no array is changed. (Refuted otherwise: if another suite of the host has a run-time constituent array, every registration inquires the size of an array that was never allocated; registering a suite again without the clean-up allocates an allocated array.)", "quantifier": "all suites, numbers and contents of arrays, all earlier states of the module arrays", "why_tests_cant": "Sizes, contents and numbers of arrays and suites are unbounded", "anchors": ["scripts/host_cap.py:write_host_cap", "scripts/host_cap.py:suite_dynamic_constituent_array_name"]}
{"id": "C129", "title": "Inspection agrees with dispatch", "statement": "ccpp_physics_suite_list returns the suite names in order; for a known suite ccpp_physics_suite_part_list returns each of its parts, sorted, and ccpp_physics_suite_schemes each scheme of its phases and groups once, sorted, with every element assigned and error code 0; for an unknown suite the error code is 1 and nothing is returned; if the caller's strings are long enough, running a listed part calls the group of that name, and every part that can be run is listed. (Refuted for shorter strings: names are cut off without an error and cannot be run.)", "quantifier": "all suites, groups and schemes, all string lengths, all argument strings", "why_tests_cant": "Three generated routines have to agree for every list of suites and every name", "anchors": ["scripts/ccpp_suite.py:API.write_inspection_routines", "scripts/ccpp_suite.py:API.write_suite_part_list_sub", "scripts/ccpp_suite.py:API.write_suite_schemes_sub", "scripts/ccpp_suite.py:API.write_var_set_loop", "scripts/ccpp_suite.py:Suite.part_list"]}
{"id": "C130", "title": "A scheme receives its arguments converted to its own units, kind and vertical orientation", "statement": "For every scheme call in a generated group cap, whatever the number and mix of arguments, if names do not clash and every transformed optional argument is active, the generated code runs without touching undefined or unallocated storage, calls the scheme exactly once with every one of its dummy arguments, and every argument the scheme reads whose units, kind or vertical orientation differ from the host's is seen by the scheme, level by level, as the host's value of the same physical level converted to the scheme's units; an argument that needs no conversion is the host's own variable.", "quantifier": "all argument lists, groups, memory contents, vertical ranges, unit pairs and schemes (arbitrary functions)", "why_tests_cant": "The number of arguments, of levels and the contents are unbounded, and the scheme is arbitrary code; tests run one host with a few variables.", "anchors": ["scripts/suite_objects.py: Scheme.write, Scheme.add_var_transform, Scheme.write_var_transform, CallList.call_string", "scripts/var_props.py: VarCompatObj.forward_transform, VarCompatObj.reverse_transform"]}
{"id": "C131", "title": "What a scheme computes is converted back into the host's variable, and nothing else changes", "statement": "After the call, every transformed inout variable of the host holds, level by level, the scheme's final value of the same physical level converted to the host's units; every intent(in) variable is unchanged whatever the scheme does to its copy; a scheme that leaves an inout argument as it found it leaves the host's variable as it was (exact arithmetic, for every pair of units capgen converts); no other variable of the group is changed.", "quantifier": "all argument lists, groups, memory contents, vertical ranges, unit pairs and schemes", "why_tests_cant": "Ranges over all data and all schemes; a test only samples values.", "anchors": ["scripts/suite_objects.py: Scheme.write, Scheme.add_var_transform, Scheme.write_var_transform, CallList.call_string", "scripts/var_props.py: VarCompatObj.forward_transform, VarCompatObj.reverse_transform"]}
{"id": "C132", "title": "A scheme's intent(out) result reaches the host in the host's units", "statement": "For every transformed intent(out) argument the host's variable ends with the conversion of what the scheme computed. True for optional active arguments; refuted for every non-optional intent(out) argument: the scheme is called with the host's variable itself and then the host's variable is overwritten with the conversion of the never-assigned copy, whatever the scheme computed.", "quantifier": "all argument lists with a transformed intent(out) argument, all schemes and data", "why_tests_cant": "The overwritten value depends on uninitialised memory; a test may see plausible numbers.", "anchors": ["scripts/suite_objects.py: Scheme.write, Scheme.add_var_transform, Scheme.write_var_transform, CallList.call_string", "scripts/var_props.py: VarCompatObj.forward_transform, VarCompatObj.reverse_transform"]}
{"id": "C133", "title": "An optional argument that the host has switched off is absent in the scheme, one that is switched on is the host's variable", "statement": "For every call whose transformed optional arguments are active: an optional argument whose host variable is inactive, or which the host does not have, is absent in the scheme and its variable is untouched; an active one without transform is the host's variable. Refuted for transformed optional arguments that the scheme reads and that are inactive: the generated code reads the unallocated variable; if it happens to be allocated the scheme is told the argument is present.", "quantifier": "all argument lists, conditionals and memory contents", "why_tests_cant": "Needs every combination of conditionals and transforms over unbounded argument lists.", "anchors": ["scripts/suite_objects.py: Scheme.write, Scheme.add_var_transform, Scheme.write_var_transform, CallList.call_string", "scripts/var_props.py: VarCompatObj.forward_transform, VarCompatObj.reverse_transform", "scripts/suite_objects.py: Scheme.associate_optional_var, Scheme.assign_pointer_to_var, Scheme.analyze"]}
{"id": "C134", "title": "Transforms and optional arguments work for variables of the group and for variables named differently by different schemes", "statement": "Refuted. For every scheme with a transformed argument whose variable is not in the group's call list (it is produced by another scheme of the group, or owned by the suite) no code can be written (an attribute of None is requested); and for every optional argument whose variable has another name in the group, the pointer passed is associated with whatever group variable has the scheme's local name.", "quantifier": "all groups, argument lists and names", "why_tests_cant": "The failure depends on the naming in all schemes of a suite together.", "anchors": ["scripts/suite_objects.py: Scheme.write, Scheme.add_var_transform, Scheme.write_var_transform, CallList.call_string", "scripts/var_props.py: VarCompatObj.forward_transform, VarCompatObj.reverse_transform", "scripts/suite_objects.py: Scheme.associate_optional_var"]}
{"id": "C135", "title": "Optional arguments of different schemes of a group do not interfere", "statement": "Refuted. Whenever two schemes of a group use the same local name for optional arguments of different variables, the first active and the second inactive, the second scheme sees its argument present with the first variable's values: pointers are reset only at the end of the group.", "quantifier": "all groups, pairs of schemes and memory contents", "why_tests_cant": "A history property of the generated code across calls.", "anchors": ["scripts/suite_objects.py: Scheme.write, Scheme.add_var_transform, Scheme.write_var_transform, CallList.call_string", "scripts/var_props.py: VarCompatObj.forward_transform, VarCompatObj.reverse_transform", "scripts/suite_objects.py: Group.write"]}
{"id": "C136", "title": "A condition in standard names becomes the same condition in local names", "statement": "For a variable whose `active` attribute is a text of names, integers, blanks, parentheses and the known lower-case operators, the Fortran condition generated is that text with every name replaced by the local name of the variable that the first dictionary knowing the name gives; the variables needed to evaluate it are reported in order of appearance, and generation fails exactly when some name is unknown.", "quantifier": "all token lists (adjacent tokens distinguishable), all lists of dictionaries", "why_tests_cant": "the space of condition texts is infinite; a tokenizer slip only shows for particular neighbours of tokens", "anchors": ["scripts/parse_tools/fortran_conditional.py", "scripts/metavar.py:Var.conditional"]}
{"id": "C137", "title": "A condition that cannot be represented is rejected, not altered", "statement": "If the `active` attribute contains something the translation does not understand (a sign, arithmetic, a decimal point, a component selector, a tab, a quoted text), an error is reported instead of a condition that means something else. (False of the code: such characters are dropped silently, `x > -1` becomes `x > 1`; only quoted texts are reported.)", "quantifier": "all texts, all foreign characters, all positions", "why_tests_cant": "a test can only exhibit one such text; that every foreign character is dropped everywhere needs the general tokenizer argument", "anchors": ["scripts/parse_tools/fortran_conditional.py", "scripts/metavar.py:Var.conditional"]}
{"id": "C138", "title": "Letter case is not significant in conditions", "statement": "Writing names, operators or logical constants of a condition in another case does not change the generated condition. (True for names; false for operators and constants: `.AND.` or `.TRUE.` in upper case make generation fail.)", "quantifier": "all condition texts, all operators, all dictionaries not knowing a variable of the operator's name", "why_tests_cant": "case variants multiply over all tokens of all texts", "anchors": ["scripts/parse_tools/fortran_conditional.py", "scripts/metavar.py:Var.conditional"]}
{"id": "C139", "title": "The conditional statement around an optional argument is a legal if-then statement", "statement": "The line opening the block that sets or copies back the pointer of an optional argument is a Fortran if-then statement, i.e. its condition stands in one pair of parentheses. (False of the code unless the metadata author writes the outer parentheses: with no condition the line is `if .true. then`.)", "quantifier": "all conditions, all dictionaries", "why_tests_cant": "depends on every possible `active` text; the test hosts all write the parentheses themselves", "anchors": ["scripts/suite_objects.py:Scheme.associate_optional_var", "scripts/suite_objects.py:Scheme.assign_pointer_to_var"]}
{"id": "C140", "title": "A prebuild group cap gets exactly the extra host variables it needs", "statement": "For every scheme called in a group cap, the host variables added to its arguments are exactly those needed for the horizontal range of the stage, the non-numeric bounds of the dimensions of its arguments, the conversion of blocked storage and the conditions of its arguments, without those already present, each once; every argument gets a condition, earlier ones are kept, and a new one is the translation of the variable's own condition. A scheme variable may not have a condition of its own, and reading a host condition changes only its blanks.", "quantifier": "all host models, all argument lists, all sets of variables already there, both kinds of stages", "why_tests_cant": "the set is accumulated over loops with membership tests against three growing collections", "anchors": ["scripts/mkstatic.py:Group.write", "scripts/metadata_parser.py:read_new_metadata"]}
{"id": "C141", "title": "Host variables a prebuild cap needs but the host does not define are reported", "statement": "Group-cap generation reports an argument, a dimension bound or a name in a condition that the host model does not define, and succeeds when everything needed is defined. (False for the names added automatically -- ccpp_constant_one, ccpp_block_count, horizontal_dimension -- which are added without looking whether the host defines them.)", "quantifier": "all host models, argument lists and stages", "why_tests_cant": "absence of a definition can occur at any of the accumulated names", "anchors": ["scripts/mkstatic.py:Group.write"]}
{"id": "C142", "title": "The variables a host variable's Fortran name refers to are found at any depth of subscripts", "statement": "For every Fortran reference used as the local name of a host variable -- components separated by %, subscripts that are numbers, sections or references themselves, nested to any depth -- ccpp_prebuild determines the variable the reference starts with and exactly the set of variables occurring in subscripts, each once.", "quantifier": "all references, of any length and nesting depth", "why_tests_cant": "References nest without bound; a test has a handful of literals.", "anchors": ["scripts/mkstatic.py:extract_parents_and_indices_from_local_name"]}
{"id": "C143", "title": "The subscripts of an actual argument combine the host's indices with the scheme's sections", "statement": "For every local name, the subscripts of its last component are found, whatever parents precede it, and the actual argument has the sections the scheme asks for, in order, and the indices of the local name in their places; generation fails exactly when the number of sections differs. (Partial: a subscript with several subscripts of its own is cut in pieces, every comma separates; refuted for all such names.)", "quantifier": "all local names, all lists of sections", "why_tests_cant": "Two lists of any length are merged; the cut depends on the nesting of the text.", "anchors": ["scripts/mkstatic.py:extract_dimensions_from_local_name", "scripts/mkstatic.py:Group.write"]}
{"id": "C144", "title": "The arguments of a prebuild cap are the host variables its schemes' variables are parts of, with the right intent", "statement": "For every host model, suite, group, stage and scheme: the variable that an argument's Fortran name starts with is an argument of the cap, once, written if the scheme writes it and intent(out) only if every part of it is only written; variables in subscripts are arguments that are read; nothing else is an argument and nothing is written that no scheme writes. The cap leaves components no scheme mentions as they are: false of the code, writing one component intent(out) makes the whole derived type intent(out).", "quantifier": "all host models, all suites of any number of groups, stages, schemes and arguments", "why_tests_cant": "the intents are accumulated over groups, stages, schemes, two passes and several parts of one variable", "anchors": ["scripts/mkstatic.py:Group.write", "scripts/mkstatic.py:Suite.write"]}
{"id": "C145", "title": "The bounds of the arrays a prebuild cap declares are available in the cap", "statement": "For every array the cap has as an argument, the variables of the bounds of its dimensions are arguments too. Partial: proved for the array that an argument of a scheme is a part of when the argument was not needed by an earlier scheme; refuted for bounds of bounds, because the variables are collected in two passes only.", "quantifier": "all host models and call sequences", "why_tests_cant": "dimensions refer to variables that are parts of arrays with dimensions again, to any depth", "anchors": ["scripts/mkstatic.py:Group.write", "scripts/mkstatic.py:Suite.write"]}
{"id": "C146", "title": "A debug check does no harm to a correct host", "statement": "With debug checks switched on, an array whose dimensions have the declared extents is never reported, and the check reads only elements inside it. Partial: proved for arrays of any rank whose dimensions start where declared and are not empty; refuted for every dimension declared not to start at 1 (arguments of caps are assumed-shape and start at 1) and for every empty dimension: an element outside the array is read.", "quantifier": "all arrays of any rank, all values of the dimensions, phases and dictionaries", "why_tests_cant": "the extents are run-time values of the host; out-of-bounds reads rarely show", "anchors": ["scripts/suite_objects.py:Scheme.write_var_debug_check", "scripts/suite_objects.py:Scheme.replace_horiz_dim_debug_check", "scripts/suite_objects.py:Scheme.add_var_debug_check"]}
{"id": "C147", "title": "A debug check reports every array of another size", "statement": "An array whose extents are not the declared ones is reported before the scheme is called. Partial: it is reported exactly when the total size differs (every wrong vector is reported); refuted for wrong shapes with the right total, such as exchanged dimensions, and for variables of the suite or group, whose horizontal size is never measured.", "quantifier": "all arrays, shapes and values of the dimensions", "why_tests_cant": "one cannot enumerate the wrong shapes", "anchors": ["scripts/suite_objects.py:Scheme.write_var_debug_check", "scripts/suite_objects.py:Scheme.replace_horiz_dim_debug_check", "scripts/suite_objects.py:Scheme.add_var_debug_check"]}
{"id": "C148", "title": "Debug checks respect activity and intent, and stop before the scheme", "statement": "A variable that is switched off is neither read nor measured, an intent(out) variable is never read, one the scheme allocates is not measured; every other array with known dimensions is checked; a failed check leaves the state unchanged, sets the error code to 1 and prevents the call, and with an earlier error nothing is done.", "quantifier": "all variables, conditions, lists of checks, schemes and states", "why_tests_cant": "ranges over all lists of checks and all run-time states", "anchors": ["scripts/suite_objects.py:Scheme.write_var_debug_check", "scripts/suite_objects.py:Scheme.replace_horiz_dim_debug_check", "scripts/suite_objects.py:Scheme.add_var_debug_check", "scripts/suite_objects.py:Scheme.write"]}
{"id": "C149", "title": "Argument lists and declarations of prebuild caps agree", "statement": "For every set of variables a cap of ccpp_prebuild needs, if the cap can be written, its argument list contains each variable exactly once, the scalars first and otherwise in the order of the set, and the i-th declaration declares the i-th argument: its type with its kind, its intent, optional exactly if the host variable is not always allocated, target, and an assumed shape with one lower bound per dimension (1 if none is given), standard names being replaced by the host's local names. The cap can be written exactly if no variable is optional in the host metadata, every bound (lower and upper) is a number or defined by the host, no derived type has a kind, and every kind and type needed is defined in a module.", "quantifier": "every host metadata, every set of variables with any types, kinds, dimensions", "why_tests_cant": "the declaration text is assembled from five attributes and two passes; a test sees a few combinations", "anchors": ["scripts/mkstatic.py: create_arguments_module_use_var_defs", "scripts/mkcap.py: Var.print_def_intent, Var.dimstring_local_names"]}
{"id": "C150", "title": "Bounds are declared before the arrays that use them", "statement": "In every cap of ccpp_prebuild, a bound of an array's dimension that is a scalar argument of the cap is declared before the array (Fortran requires it). False when the bound is a component of an array argument: such an array may be declared later.", "quantifier": "every host metadata and every order of the variables", "why_tests_cant": "whether the order is legal depends on the whole set of variables", "anchors": ["scripts/mkstatic.py: create_arguments_module_use_var_defs"]}
{"id": "C151", "title": "Kinds and derived types are imported once", "statement": "A cap of ccpp_prebuild imports exactly the kinds (of non-character variables) and derived types its arguments need, each once, from the module of the host's definition. False where the kind's standard name differs from its local name (the declaration uses one, the import the other) and where a module's name itself contains MODULE_.", "quantifier": "every host metadata and every set of variables", "why_tests_cant": "duplicate or missing imports appear only for particular combinations of variables", "anchors": ["scripts/mkstatic.py: create_arguments_module_use_var_defs", "scripts/mkcap.py: Var.print_module_use"]}
{"id": "C152", "title": "Local variables and pointers of prebuild caps are declared once", "statement": "The temporaries a cap of ccpp_prebuild needs for unit conversions and for conditionally allocated variables are declared after the arguments, each once, in order; the type of a pointer is defined once and before its first use; their kinds are imported. For numeric and logical variables with a kind the name of the pointer type determines type, kind and rank. False in general: a variable without kind and one of kind default_kind share a type, a text of assumed length gives a type name that is no Fortran name, and the derived type of a local pointer is not imported.", "quantifier": "every set of arguments, temporaries and pointers", "why_tests_cant": "the clashes need particular combinations of types and kinds", "anchors": ["scripts/mkstatic.py: create_arguments_module_use_var_defs", "scripts/mkcap.py: Var.print_def_local"]}
{"id": "C153", "title": "The host cap imports exactly the host module variables that are used", "statement": "Whatever standard names the framework has looked for in the host model, and in whatever order, the host cap then imports exactly those variables of host module tables of which the variable itself or one of its components (at any depth) was looked for, or is a subscript of a variable that was; each is imported once and from the module of its own table. A search finds a variable exactly if a host variable or a component of one has that standard name.", "quantifier": "every set of host tables, DDT library and sequence of searches", "why_tests_cant": "The set of uses depends on the order and history of searches, subscripts lead from variable to variable without bound, and components nest to any depth; tests use a few hosts and one suite each.", "anchors": ["scripts/host_model.py:HostModel.find_variable", "scripts/host_model.py:HostModel.variable_locations", "scripts/ddt_library.py:VarDDT.get_parent_prop", "scripts/host_cap.py:write_host_cap"]}
{"id": "C154", "title": "Every host variable that is used can be accessed in the host cap", "statement": "Every used variable of a host table can be accessed under its local name in every routine of the host cap: variables of module tables are imported and are no dummy arguments, variables of host tables are dummy arguments and are not imported, loop variables being arguments in the run phase only.", "quantifier": "every host description, sequence of searches, table, variable and phase", "why_tests_cant": "It relates all searches of a run to two different lists of the generated module, for every combination of table types and phases.", "anchors": ["scripts/host_model.py:HostModel.variable_locations", "scripts/host_model.py:HostModel.call_list", "scripts/metavar.py:VarDictionary.include_var_in_list", "scripts/host_cap.py:write_host_cap"]}
{"id": "C155", "title": "Exactly the consistent host descriptions are accepted", "statement": "A host description is accepted exactly if all tables are module or host tables, a name is given or there is a host table, every structure has a known type without endless nesting, no standard name is offered twice by variables or components of any depth nor is that of the constant one, no two variables and no two components have the same local name in any case, and no loop variable of a host table has the local name of a component that is one. In an accepted host model every standard name denotes one variable or component.", "quantifier": "every DDT library, host name and sequence of tables", "why_tests_cant": "Conflicts can arise between any two variables or components of any tables, at any depth and in any order; tests try single conflicts.", "anchors": ["scripts/host_model.py:HostModel.__init__", "scripts/host_model.py:HostModel.add_variable", "scripts/metavar.py:VarDictionary.add_variable", "scripts/ddt_library.py:DDTLibrary.collect_ddt_fields", "scripts/ddt_library.py:DDTLibrary.check_ddt_type"]}
{"id": "C156", "title": "The loop variables of all host tables are kept", "statement": "The loop variables a host model hands to its cap are all loop variables of its host tables and all components of its variables that are loop variables.", "quantifier": "every host description", "why_tests_cant": "The tables are processed one after the other and may be any number in any order.", "anchors": ["scripts/host_model.py:HostModel.__init__", "scripts/host_model.py:HostModel.loop_vars", "scripts/host_cap.py:suite_part_call_list"]}
{"id": "C157", "title": "Array-reference names take the variable's dimensions", "statement": "When the local name of a host variable is an array reference such as q(:,:,i), the framework replaces its colons, in order, by the dimensions given in the metadata and keeps the other subscripts; if there are more or fewer colons than dimensions this is reported as an error, and never silently repaired. A plain name keeps its dimensions.", "quantifier": "all local names accepted by the metadata parser, all dimension lists", "why_tests_cant": "Subscript lists and dimension lists have any length and the colons may be anywhere in them.", "anchors": ["scripts/metavar.py Var.handle_array_ref"]}
{"id": "C158", "title": "Arguments of a run-phase call are the sections the caller asks for", "statement": "In a run phase the host cap passes, for every host variable, the array or structure component named in the metadata with one subscript per dimension: a horizontal dimension is cut to the values of the host's loop begin and end, a vertical one to the host's layer index if it has one, every other bound is the value of the host variable with that standard name, whatever chain of names and array elements leads to it.", "quantifier": "all host dictionaries, all values of all host variables, all nesting depths of index variables and derived types", "why_tests_cant": "The text is only right if it evaluates to the right section for all values of the host's variables and all dictionaries.", "anchors": ["scripts/metavar.py Var.call_string, VarDictionary.find_loop_dim_match, VarDictionary.var_call_string", "scripts/ddt_library.py VarDDT.call_string", "scripts/host_cap.py suite_part_call_list"]}
{"id": "C159", "title": "Arguments of the other phases are whole objects", "statement": "Outside the run phase the host cap passes the whole object: the array or component itself, and for an array-reference name the section with its colons kept and its indices translated to the values of the host variables with those standard names.", "quantifier": "all host dictionaries, all values, all nesting depths", "why_tests_cant": "As for the run phase: correctness is about the meaning of the text for all values.", "anchors": ["scripts/metavar.py Var.call_string", "scripts/host_cap.py suite_part_call_list"]}
{"id": "C160", "title": "Arguments that cannot be written are reported", "statement": "If a dimension or subscript of a variable is neither a known standard name nor a number, no argument text is produced and the run ends with the framework's error; the translation always terminates with a text or that error.", "quantifier": "all host dictionaries, including ones whose index variables are themselves array elements", "why_tests_cant": "Termination and the class of every failure range over all dictionaries.", "anchors": ["scripts/metavar.py Var.call_string"]}
{"id": "C161", "title": "Dimension strings have one entry per dimension, from the first dictionary that has it", "statement": "The dimension string of a variable has exactly one entry per dimension: a colon for a range unless bounds are asked for, otherwise the loop bounds of the first dictionary that has them if a loop substitution is asked for, otherwise the bounds as values of the variables of the first dictionary that has each of them. A bound found in no dictionary is reported as an error. Bounds may be numbers.", "quantifier": "all variables, all lists of dictionaries, all combinations of the flags", "why_tests_cant": "The search order and the loop substitution interact over arbitrary lists of dictionaries.", "anchors": ["scripts/metavar.py Var.call_dimstring, VarDictionary.find_loop_dim_match", "scripts/suite_objects.py CallList.call_string"]}
{"id": "C162", "title": "Dummy arguments are declared as the metadata say", "statement": "The declaration written for a dummy argument of a generated cap is a legal Fortran declaration of exactly that object: its name (of the whole array if the local name is an array reference), its type and kind, one open dimension per dimension, and its intent (in if it is protected, the supplied one if the metadata have none); it is optional exactly if the metadata say so, and allocatable exactly if the metadata say so and the argument is an output. The framework's own parser reads the same variable back from the text.", "quantifier": "all variables with a readable type, all flags, names and dimension lists", "why_tests_cant": "The declaration combines a dozen independent properties with computed padding; legality and meaning of the text must hold for every combination and length of name, kind and dimension list.", "anchors": ["scripts/metavar.py:Var.write_def", "scripts/fortran_tools/parse_fortran.py:parse_fortran_var_decl"]}
{"id": "C163", "title": "Local variables and suite variables are declared allocatable or scalar", "statement": "A local or suite variable that a cap allocates is declared allocatable with one open dimension per dimension, a scalar without; a variable that is asked to be a target is a target; none has an intent or is optional; and the declaration satisfies the rules of Fortran (no attribute twice, open shapes and polymorphic types only for arguments, allocatables and pointers).", "quantifier": "all variables with a readable type, all flags and dimension lists", "why_tests_cant": "The rules of the language relate the shape, the type and all attributes of a declaration; tests compile a few.", "anchors": ["scripts/metavar.py:Var.write_def", "scripts/suite_objects.py:Group.write", "scripts/ccpp_suite.py:Suite.write"]}
{"id": "C164", "title": "Every variable of a call list is declared once, or the generation ends with an error", "statement": "The declarations of a dictionary are one per variable, in its order, except that the constant one has none; a component of a structure is declared by its own type; and the only failures are an argument without an intent when none is supplied and an allocated variable that is protected, both reported as an error of the framework.", "quantifier": "all dictionaries and variables", "why_tests_cant": "Completeness and order are about dictionaries of any length and component chains of any depth.", "anchors": ["scripts/metavar.py:VarDictionary.declare_variables", "scripts/ddt_library.py:VarDDT.write_def", "scripts/metavar.py:Var.write_def"]}
{"id": "C165", "title": "Optional arguments get a matching null pointer", "statement": "For every optional variable a group cap declares a pointer named after it, with the same type, kind and rank, initialised to null; the text is a legal declaration and the framework's own parser reads back the same name, type, kind and rank.", "quantifier": "all variables with a readable type and all dimension lists", "why_tests_cant": "The padding depends on the lengths of all parts; legality and meaning must hold for every variable.", "anchors": ["scripts/metavar.py:Var.write_ptr_def", "scripts/suite_objects.py:Group.write"]}
{"id": "C166", "title": "A ccpp_prebuild cap passes the section of the host array that the scheme asks for", "statement": "For every array argument of a scheme, the call in the group cap passes, in each dimension, exactly the elements from the lower to the upper bound in the scheme's metadata; in the run phase the horizontal dimension is the current chunk (horizontal_loop_begin to horizontal_loop_end) if the host keeps the whole domain in one array and defines loop bounds, and 1 to horizontal_loop_extent otherwise. The sections stand where the host's local name has colons, the host's indices stay in place, and generation succeeds only if there are as many colons as dimensions. If the loop bounds of the host fit together the scheme gets as many columns as it is told.", "quantifier": "all hosts, arguments, dimensions, phases and values of the host's bounds", "why_tests_cant": "tests generate caps for a few variables and compare texts; the property is about every combination of bounds, phases, local names and run-time values", "anchors": ["scripts/mkstatic.py:Group.write", "scripts/mkcap.py:Var", "scripts/common.py"]}
{"id": "C167", "title": "The array passed by a ccpp_prebuild cap has the rank the scheme declares", "statement": "The section passed for an array argument has as many dimensions as the metadata of the scheme.", "quantifier": "all arguments and hosts", "why_tests_cant": "needs every pair of bounds, including equal ones, for which the cap writes an index instead of a section", "anchors": ["scripts/mkstatic.py:Group.write", "scripts/mkcap.py:Var", "scripts/common.py"]}
{"id": "C168", "title": "The debug size checks of ccpp_prebuild caps report arrays of the wrong size and only those", "statement": "In a cap generated with --debug, the size check before a scheme is a valid expression, stops the model if the host's array does not have the size the scheme expects, and never stops it otherwise.", "quantifier": "all arguments, hosts, array bounds and values of dimensions", "why_tests_cant": "needs all values of the dimensions at run time and all shapes of the host's arrays; tests look at generated text or at runs where the sizes fit", "anchors": ["scripts/mkstatic.py:Group.write", "scripts/mkcap.py:Var", "scripts/common.py"]}
{"id": "C169", "title": "ccpp_prebuild refuses arguments whose dimensions are unknown or belong to another phase", "statement": "Cap generation fails with a message if a dimension of an argument is not lo:hi, if a bound is neither an integer nor a variable of the host, or if a horizontal dimension is used that does not exist in the phase (in the run phase horizontal_dimension and the loop bounds; otherwise the loop bounds and the loop extent); everything else is accepted.", "quantifier": "all arguments, hosts and phases", "why_tests_cant": "quantifies over all dimensions and hosts; a test shows one error", "anchors": ["scripts/mkstatic.py:Group.write", "scripts/mkcap.py:Var", "scripts/common.py"]}
{"id": "C170", "title": "Host variables get their full Fortran names in ccpp_prebuild", "statement": "After the host metadata have been gathered, the local name of every variable is its full Fortran name: the reference configured in typedefs_new_metadata for the structure it is a component of, and its name, with every standard name in its subscripts replaced by the full name of that variable and numbers and colons unchanged. Variables of modules that are not configured keep their names; nothing else changes.", "quantifier": "all host metadata, configurations, subscripts of any number and depth", "why_tests_cant": "tests convert a handful of names; the recursion through subscripts and the table of converted variables need induction over all hosts", "anchors": ["scripts/ccpp_prebuild.py:convert_local_name_from_new_metadata", "scripts/ccpp_prebuild.py:gather_variable_definitions", "scripts/common.py:split_var_name_and_array_reference"]}
{"id": "C171", "title": "The full names of host variables do not depend on the order of the metadata", "statement": "Gathering the same variables in another order succeeds as well and gives every variable the same name: no reference is put in front twice, none is forgotten.", "quantifier": "all hosts and all orders of their variables", "why_tests_cant": "the conversion changes the metadata while it recurses; every order is another history", "anchors": ["scripts/ccpp_prebuild.py:convert_local_name_from_new_metadata", "scripts/ccpp_prebuild.py:gather_variable_definitions", "scripts/common.py:split_var_name_and_array_reference"]}
{"id": "C172", "title": "Host metadata that cannot be converted are reported", "statement": "Gathering succeeds exactly if every variable is defined once and has a full name, that is, every structure is configured and every subscript leads to variables that have one; otherwise an error message names the variable.", "quantifier": "all host metadata and configurations", "why_tests_cant": "quantifies over all graphs of references between subscripts, including cyclic ones", "anchors": ["scripts/ccpp_prebuild.py:convert_local_name_from_new_metadata", "scripts/ccpp_prebuild.py:gather_variable_definitions", "scripts/common.py:split_var_name_and_array_reference"]}
{"id": "C173", "title": "Metadata of ccpp_prebuild is exactly the table's variables", "statement": "When ccpp_prebuild reads the metadata of a module, a derived type or a subroutine, it gets one entry for each variable of the sections with that name, in order and under the variable's standard name, no name twice. Each entry keeps the variable's local name, long name, units, dimensions and intent; its type is in lower case, its kind is empty for a derived type, its activity is T, F or the condition with single blanks, and its container names the module, type or subroutine it belongs to.", "quantifier": "every parsed metadata file, module, table and scheme name", "why_tests_cant": "tests read a few files; the claim ranges over all tables and all contents", "anchors": ["scripts/metadata_parser.py: read_new_metadata"]}
{"id": "C174", "title": "Tables ccpp_prebuild accepts", "statement": "A metadata table is accepted exactly if no standard name occurs twice in it, no horizontal_loop_extent appears in an _init or _finalize subroutine, no horizontal_dimension in a _run subroutine or as a dimension of host variables, every variable of a scheme is unconditionally active, and no variable of the host is optional; anything else is refused with a message.", "quantifier": "every parsed metadata file, module, table and scheme name", "why_tests_cant": "no test enumerates all refused tables", "anchors": ["scripts/metadata_parser.py: read_new_metadata", "scripts/metadata_table.py: MetadataSection.parse_variable"]}
{"id": "C175", "title": "Dependencies ccpp_prebuild takes from metadata", "statement": "The dependencies reported with a table are those of the metadata headers that contain it, in order and each relative to the header's path unless absolute, once for every section of that name.", "quantifier": "every parsed metadata file and table name", "why_tests_cant": "depends on every combination of paths and sections", "anchors": ["scripts/metadata_parser.py: read_new_metadata"]}
{"id": "C176", "title": "ccpp_prebuild finds exactly the scheme subroutines of a file", "statement": "In a scheme's Fortran file ccpp_prebuild finds every subroutine <module>_<phase> of every module, with its end, except those internal to another one it found; it records nothing else, nothing twice, and stops with an error when such a subroutine is named after another module. The phase is the longest that fits; letter case and prefixes of the subroutine statement do not matter.", "quantifier": "every Fortran file", "why_tests_cant": "the possible files are unbounded: nesting, comments, missing ends, several modules", "anchors": ["scripts/metadata_parser.py: parse_scheme_tables", "scripts/common.py: CCPP_STAGES"]}
{"id": "C177", "title": "The arguments of a scheme subroutine come from its own metadata table", "statement": "The argument list of a scheme subroutine is the list of standard names of the variables of its metadata table, in order, if its table header is the nearest above the subroutine and is followed by an include line and an end line; it is empty without a table or with an empty one. A subroutine with arguments has the error message and error code among them.", "quantifier": "every Fortran file and metadata file", "why_tests_cant": "tests use one table right above each subroutine", "anchors": ["scripts/metadata_parser.py: parse_scheme_tables", "scripts/common.py: CCPP_STAGES", "scripts/metadata_parser.py: read_new_metadata"]}
{"id": "C178", "title": "ccpp_prebuild reads continued lines as one statement", "statement": "What ccpp_prebuild sees in a Fortran file does not depend on how the statements are split into continued lines or on blank lines; comment lines have no influence on the statements around them.", "quantifier": "every Fortran file", "why_tests_cant": "every splitting of every file", "anchors": ["scripts/metadata_parser.py: parse_scheme_tables", "scripts/common.py: CCPP_STAGES"]}
{"id": "C179", "title": "Each local variable of a group's subroutine is declared once, as what it is", "statement": "Each variable a group declares for itself becomes exactly one of: an allocatable array (with dimensions, not optional), an optional array (with dimensions, optional, passed by the host), an inactive variable (the same, not passed by the host), a scalar (without dimensions); local copies for transforms become arrays or scalars. A variable declared twice with compatible metadata is declared once.", "quantifier": "every list of local variables, call list and transform copies", "why_tests_cant": "all combinations of dimensions and attributes", "anchors": ["scripts/suite_objects.py: Group.write"]}
{"id": "C180", "title": "The local arrays of a group are allocated with the bounds of their metadata and freed", "statement": "The group's subroutine is written if and only if the local name of every standard name in its local arrays' dimensions is known; its statements before the schemes allocate each local array with the bounds of its metadata and nothing else; those after the schemes leave none of them allocated, whatever the schemes did, and touch nothing else. The text depends on the group alone.", "quantifier": "every group and every state of the heap", "why_tests_cant": "every number of arrays, every dimension, every state the schemes leave behind", "anchors": ["scripts/suite_objects.py: Group.write", "scripts/suite_objects.py: Group.allocate_dim_str"]}
{"id": "C181", "title": "A group's subroutine has a pointer for every optional argument", "statement": "The group's subroutine declares one pointer, named after the variable with _ptr and of its rank, for each optional variable of its call list and each inactive variable, and no other.", "quantifier": "every group", "why_tests_cant": "tests use groups with local variables of their own", "anchors": ["scripts/suite_objects.py: Group.write"]}
{"id": "C182", "title": "A variable is created exactly from a legal description", "statement": "A dictionary of properties becomes a variable if and only if every property is known and has a legal value (for names, units, dimensions, type, intent, default, diagnostic name, persistence, molar mass, logical attributes), the required properties are there, and a protected variable has no intent but in. A description with ddt_type takes it as kind, as type unless that is given, and may lack units. Otherwise there is a syntax error.", "quantifier": "every dictionary of metadata properties and every set of registered derived types", "why_tests_cant": "the combinations of properties and values are unbounded", "anchors": ["scripts/metavar.py: Var.__init__", "scripts/var_props.py: VariableProperty.valid_value"]}
{"id": "C183", "title": "Properties that are not given have their documented defaults", "statement": "The value of a property of a variable is the given one, or else its default: false for logical attributes, timestep, .true. for active, zero molar mass; the long name is the standard name with a capital, blanks for underscores and a decimal point for each p between digits; the kind is kind_phys for real, complex and double precision types and empty otherwise. A variable is a constituent exactly if it has a constituent property with a value other than the default.", "quantifier": "every dictionary of metadata properties", "why_tests_cant": "every standard name and type", "anchors": ["scripts/metavar.py: Var.get_prop_value", "scripts/var_props.py: standard_name_to_long_name", "scripts/var_props.py: default_kind_val", "scripts/metavar.py: Var.__init__"]}
{"id": "C184", "title": "Adjusting the intent and cloning keep a variable legal and unchanged otherwise", "statement": "Adjusting the intent of a variable to that of a source gives the common intent, that of the source if the variable had none, and inout if they differ; it changes nothing else, leaves the description legal, and is refused for exactly the protected variables whose source writes. A clone without changes equals the variable; one with a new local name is accepted exactly if that is a variable or array reference; one without intent is a legal host variable and no scheme variable.", "quantifier": "every pair of legal variables; every variable and new name", "why_tests_cant": "every combination of intents and properties", "anchors": ["scripts/metavar.py: Var.adjust_intent", "scripts/metavar.py: Var.clone"]}
{"id": "C185", "title": "A prototype metadata file written for Fortran headers is read back as those headers", "statement": "Write the prototype metadata file for the headers that the Fortran parser found (ccpp_fortran_to_metadata), where the tables of one name follow each other, the names are valid and not repeated, and the section separator is blank or a comment. When the metadata reader accepts the properties of the variables, it reads the file as exactly one table for each name, with the sections of all the headers of that name in their order, and the variables of each section in their order, each with its local name, standard name, units (enter_units when it has none), type and kind (or derived type) in lower case, the standard names of the bounds as dimensions, and, in a scheme, its intent. Tables of one name following each other is needed: there are headers of two schemes that are read back in that order and refused by the reader when they alternate.", "quantifier": "all lists of tables, sections, variables and dimensions, separators, counters of placeholders and metadata readers", "why_tests_cant": "tests write a few files; the agreement of writer and reader is over every list of headers", "anchors": ["scripts/ccpp_fortran_to_metadata.py: write_metadata_file", "scripts/metadata_table.py: parse_metadata_file", "scripts/metadata_table.py: MetadataTable", "scripts/metadata_table.py: MetadataSection"]}
{"id": "C186", "title": "Bounds without a standard name get new placeholders in a prototype metadata file", "statement": "In a prototype metadata file every bound of a dimension that is empty or is neither 1 nor a variable seen so far in the section is written as enter_standard_name_k; these numbers follow each other without a gap from the last one used, so no two bounds share a placeholder and none used before appears again. A bound that is a variable seen so far in the section, or 1, is written as its latest standard name.", "quantifier": "all known names, counters and lists of dimensions", "why_tests_cant": "the numbers depend on everything written before; tests use one file", "anchors": ["scripts/ccpp_fortran_to_metadata.py: write_metadata_file", "scripts/parse_tools/parse_source.py: unique_standard_name"]}
