# Formal model of NCAR/ccpp-framework in Rocq (Coq 8.16.1)

The code in /repo is modelled function by function as total, executable Gallina
functions (stdlib only). Per area there are up to four files in rocq/theories:
`XModel.v` (definitions citing file and lines, no proofs), `XSpec.v` (small
independent specification where the theorem statements need one), `XProofs.v`
(lemmas) and `XProps.v` (the property theorems, closed by `exact`, each followed
by `Print Assumptions` and a concrete example meeting its hypotheses).

Conventions: a Python exception or Fortran error return is a value of the model;
an out-of-bounds access, a double allocation and similar run-time aborts are
explicit outcomes, not defaults. Where the unchanged code violates the property,
the theorem is called `..._refuted` (a witness execution) and what does hold is
`..._partial`; the MANIFEST status is then "partial".

## Plan per property

- **C01 Hash table behaves as a map.** HashModel.v models ccpp_hash_table_t as an optional list of buckets with overflow chains; refinement to a list of accepted objects (HashSpec.v) by induction over call histories.
- **C02 Hash function always addresses a valid bucket.** key_hash over Z with lxor/land; land with 2^n-1 is mod 2^n. Full.
- **C03 Hash table iteration visits every entry exactly once.** Iterator as index + chain pointer; collected values are a permutation of the contents. False for the empty table (out-of-bounds read), so partial + refuted.
- **C04 Locking the constituent table assigns a dense, advected-first index set.** ConstModel.v: model constituents object; lock_table as loop over hash iteration order. Invariants on positions.
- **C05 Constituent table protocol.** Histories over ConstModel; protocol invariant; reuse after reset refuted (data_locked is never cleared).
- **C06 Registering a constituent twice.** add_metadata branch by branch in ConstModel.
- **C07 Constituent properties object lifecycle.** ConstPropModel.v: ccpp_constituent_properties_t as record; instantiate/deallocate/setters as transitions; refutations for re-instantiate and stale fields.
- **C08 Constituent field gather/scatter.** copy_in/copy_out as list updates on the field array indexed by constituent.
- **C09 Generated suite caps enforce the suite state machine.** CapModel.v: semantics of the code generated by Group.write/Suite.write as a state machine over call histories.
- **C10 Scheme failure stops the phase.** Scheme call list with error guards, error oracle per scheme; failing phase still sets the state (refuted part).
- **C11 Suite-owned variables are allocated and deallocated in balance.** Allocation flags in CapModel; invariant allocated <-> state.
- **C12 Suite variable queries return exactly the required variables.** ReqModel: collection of the suite's variables into nine sets (ccpp_suite.py L863-917) and the generated allocation/fill code as a syntax tree with an interpreter (bounds-checked assignments). Proved by symbolic execution of the emitted code and case analysis over nine memberships; refuted in general by concrete suites.
- **C13 At most one branch of each preprocessor conditional is active.** PreprocModel.v models the line classifier and region stack on text; PreprocSpec.v has properly nested texts as mutually inductive trees with a reference meaning and the exact meaning of the code; simulation by mutual induction. False with #elif (refuted); proved for at most one alternative and for a taken #if.
- **C14 Preprocessor regions nest properly.** Same model: the simulation lemma gives restoration of the region stack at every depth; error branches by computation.
- **C15 Preprocessor conditions are evaluated as in C.** The translation loop and preproc_item_value modelled; Python's ast.parse is a parameter. Induction over conditions from text to value; n-ary operators and missing blank refuted.
- **C16 Unit conversions are mutually inverse.** UnitModel.v keeps the conversion templates as text with an evaluator over rationals; UnitSpec.v gives an independent SI table (dimension, scale, offset); proved: quantity preserved, inverse pairs, two-step consistency.
- **C17 Generated files are updated exactly when they changed.** FileModel.v: trees as partial maps, os.walk as a list; loop invariant over the walk. The default mode is refuted (comparison inverted); overwrite mode proved.
- **C18 File list expansion terminates without duplicates.** FileModel.v: file system as a record of what os/glob return; recursion on fuel, termination by the set of text files already read; membership against an inductive reachability relation (FileSpec.v).
- **C19 Phase names of scheme subroutines are classified unambiguously.** Regex.v (regular expressions with a derivative matcher proved correct) and PhaseModel.v: StateMachine and CCPP_STATE_MACH. The answer of function_match is characterised for every string (including Python's '$' before a final newline); unambiguity, longest suffix, refusal, case independence and transition_match follow; unique names over all histories of additions and deletions.
- **C20 Identifier checks accept exactly the valid identifiers.** CheckModel.v models check_fortran_id and check_cf_standard_name with the regex AST of Regex.v; CheckProps.v proves acceptance iff fortran_name (and short), and the result of rejection under both flags, for strings not ending in a newline; the newline case is refuted.
- **C21 Balanced parenthesis search.** ParenSpec.v defines the visible text, height and closing position; ParenProps.v proves both directions for every string and start.
- **C22 Line folding keeps generated Fortran lines within bounds and unchanged in content.** FWModel.v models write with its recursion, break collection and break choice. Proved: line length bound for any text, termination bound, conservation of the characters, comments stay comments, and (by induction over the recursion) that a statement with places to break folds into lines that an independent reading of the free-form rules (FWSpec.folded) reads as the same statement.
- **C23 Statement splitting at semicolons.** LineModel.line_statements; the line is cut at the semicolons whose preceding text leaves the line in code context (LineSpec.ctx_of), the non-empty pieces are the statements. The join is refuted: empty statements are dropped.
- **C24 Comma splitting respects parentheses.** LineModel.reassemble_parens over text; LineSpec.cuts at the commas whose preceding parenthesis sum is zero; raising iff the sum is not zero. Commas and parentheses in quotes are not protected, refuted.
- **C25 Every physical source line is delivered once.** LineModel.pobj with curr_line/next_line; LineSpec.grouped defines the logical lines independently; theorem gives result number k for every k, so each physical line is delivered once.
- **C26 Parse context regions are well nested.** LineModel.enter_region/leave_region on lists of regions; iff characterisations, an invariant over all histories, bracketed histories restore the state. A failed leave closes a region all the same, refuted.
- **C27 A variable dictionary holds one variable per standard name.** DictModel: VarDictionary as an ordered association list plus the registered local names; add_variable (with in-place intent adjustment surviving a later exception), remove_variable, find_variable with a chain of parents; histories are lists of operations. Invariants by induction over histories.
- **C28 Generated local names are unique.** DictModel.new_name: the while loop of new_internal_variable_name with fuel, proved to be enough; freshness for lower-case untruncated prefixes, uniqueness for a first renaming; general uniqueness refuted by three different counterexamples.
- **C29 Intents are merged soundly.** DictModel.adjust_intent folded over arbitrary lists of uses; coverage by induction, order irrelevance by a characterisation of the result; protected variables refuted in one direction.
- **C30 Dimension matching yields a permutation.** DimModel.v models match_dimensions, dim_match and horiz_dim_match. Soundness by a loop invariant, completeness by counting unused positions (any injection that meets every needed dimension implies a reported match), identity and reordering as corollaries of the loop.
- **C31 Default lower bounds are equivalent to none.** CompatModel.v (var_props side) and DimModel.v (suite_objects side): refuted by 'n' against 'ccpp_constant_one:n'.
- **C32 Variables reported compatible without transformation are interchangeable.** CompatModel.v models VarCompatObj; partial (names, types, kinds, units, dimensions up to horizontal extent), refuted for character lengths, orientation and horizontal extents.
- **C33 Dimension transforms are mutually inverse.** CompatModel.v models _get_dim_transforms and DimTransform over index values; permutations proved inverse by a loop invariant; the adjusted round trip partial, refuted for transforms that move the horizontal dimension.
- **C34 Container strings round-trip.** CommonModel.v models the encoder and both decoders (with find returning -1); proved by splitting lemmas for names without blanks.
- **C35 DDT component references name the full path.** DdtModel models VarDDT objects and their call string; the exact text is computed for every component of every library of types by induction over the collection.
- **C36 Command-line definitions.** EnvModel models the two dictionaries CCPPFrameworkEnv.__init__ builds from its arguments; proved by induction over the argument lists against an independent description of items (EnvSpec).
- **C37 Datatable variable lists.** DataModel.v: datatable as records of the attributes read, the four query functions, and the part of the generator that writes them; scans characterised by induction over the lists, ancestor chain by induction on fuel; C37_terminates from a rank on parents.
- **C38 Wrapped report lines keep their content.** DataModel.v format_line; DataSpec.broken says how a line may be broken; induction on the line length.
- **C39 Variable tracking follows call order.** TrackModel.v: Suite.parse (mkstatic) as far as the call tree goes, the file dictionary and create_var_graph; TrackSpec gives calls, file and hits as inductive relations; inductions over groups, subcycles, calls and sections.
- **C40 Metadata property lines are split once.** MetaModel.v: blank_metadata_line and _parse_config_line; MetaSpec gives the pieces of a line as a join; exact characterisation of acceptance and refusal.
- **C41 Suite call trees flatten in order; subcycles render.** TreeModel.v: the suite objects as a tree, their construction, the vertical loops added by the analysis (its answers are a parameter) and the statements written; TreeSpec gives document order and what running the statements calls; structural induction with a nested induction principle.
- **C42 Schema version selection.** EnvModel.schema_version models find_schema_version with Python's int(); proved against an inductive description of numerals, plus a decimal round trip and injectivity of the schema file name.
- **C43 lock_table reports constituents that could not be indexed.** ConstModel.v; refuted by a concrete history.
- **C44 Phases other than run refuse calls from a threaded region.** CapModel.v: the generated thread check as a function of the thread number; refuted for some threads, partial otherwise.
- **C45 Unterminated conditionals are reported.** PreprocModel.read_file; refuted by a witness.
- **C46 #define and #undef take effect exactly in processed text.** PreprocModel.process_line on text; missing value refuted.
- **C47 Symbols in conditions have their C meaning.** preproc_item_value; refuted for ==, undefined and valueless symbols; ordering comparisons proved.
- **C48 Tendency variables have the state variable's units per second.** CompatModel.v is_tend branch; partial and refuted for state units that contain s-1.
- **C49 Kind conversions convert to the target's kind.** CompatModel.v text of the assigned right-hand side; partial for real variables of named kinds, refuted otherwise.
- **C50 Locking data gives every constituent a field of its default value.** ConstModel.v mc_lock_data/mc_field_data/mc_advected_data; from the reachability invariant of C05 (frozen table), compute the arrays.
- **C51 A missing source file is reported.** FileModel.v create_file_list over an arbitrary file system; refuted: glob returns nothing for a missing name, so nothing is checked.
- **C52 A reported dimension match covers every offered dimension.** DimModel.v: refuted (a needed list of lower rank matches, with a permutation); proved when no permutation is reported.
- **C53 Fortran literals are recognised exactly.** LitProofs.v proves the tests used equal the literal grammars of CheckSpec.v; CheckProps.v states them for the API; character literals without underscores; five refutations.
- **C54 References are recognised exactly.** scalar_ref_spec and ref_tokens_spec relate the pattern and the length check to array_ref.
- **C55 Unit strings are recognised exactly.** unit_list_spec and char_under_spec turn the pattern into unit_expr and joined_words.
- **C56 The error flag only chooses between raising and None.** case analysis of every checker; refuted for check_dimensions.
- **C57 Diagnostic names are recognised exactly.** diag_spec; acceptance iff diag_name.
- **C58 Dimension lists are recognised exactly.** induction over items and parts.
- **C59 Parenthesised lists are split at their commas.** the parenthesis loop skips plain text; split of join.
- **C60 Type names are recognised exactly.** prefix matching of the double precision pattern; induction over registrations; trailing text refuted.
- **C61 Statement reader skips empty lines and ends.** LineModel.read_statements with fuel; total for fuel above the number of logical lines.
- **C62 Bounded error reporting of a file parse.** LineModel.add_syntax_err, iterated; the limit and the final state by induction on the number of errors.
- **C63 Scanning a free-form source line.** ScanModel.scan_free_line, loop over the characters; ScanSpec.line_scan says in terms of the character context before each position what the columns are; equivalence by induction on the line.
- **C64 Merging of free-form continuation lines.** ScanModel.rf_file models read_file with the reader, the preprocessor stack and the continuation state; ScanSpec.merged is an inductive relation on lists of lines; read_file is proved to be the preprocessor of C16-C18 followed by this relation.
- **C65 Merging of fixed-form continuation lines.** ScanModel.rf_file in fixed form; ScanSpec.result gives the lines of one statement; proved for statements without comments on their first lines, otherwise refuted by three concrete files.
- **C66 Long character constants survive folding.** Consequence of the folding theorem when there are places to break; refuted for a constant of 240 characters, for which all readings of the lines written are shown to have another constant.
- **C67 Folding never turns code into comment.** Proved when the statement part fits the target length; refuted by a statement of 103 columns followed by a comment.
- **C68 Array reference split.** Exact description of the backward scan by induction; the array case follows from a balanced-parenthesis lemma; the no-reference case is refuted for every name.
- **C69 Unit identifiers.** Identifier and acceptance theorems; injectivity proved for units whose words are not p, minus or plus by splitting the identifier at underscores, refuted in general.
- **C70 TeX escaping.** Induction over the text.
- **C71 Components of derived types become findable once.** DdtModel.collect models the recursive collection with fuel; proved sound and complete against an inductive listing of the components (DdtSpec), for every library.
- **C72 Continuation lines and the error limit of the metadata reader.** MetaModel.v: ParseObject with its mutually recursive line reader; MetaSpec cuts the file into groups of continued lines; induction over the groups; the error counter by induction over the errors.
- **C73 A metadata file is read as written.** MetaModel.v: parse_metadata_file, MetadataTable and MetadataSection __init_from_file, parse_variable, over logical lines (C72), the checks of metavar.py being a parameter; MetaSpec.file_means says what a file means by cutting it into blocks; equivalence by induction over the lines, the sections and the tables (MetaFile.v).
- **C74 Scheme names are found without parsing.** MetaModel.v: find_scheme_names; MetaSpec.header_names; equivalence, and agreement with C73.
- **C75 Every scheme's phase routines are called once.** TreeModel.v: the loop of Suite.analyze that fills the phase groups; induction over the library.
- **C76 Static API dispatch.** StaticModel: the statements Group.write, Suite.write and API.write generate, with an interpreter of their Fortran meaning (log of scheme calls and completed group functions, saved flags, error variables). Proved by induction over the generated chains.
- **C77 Life cycle of the groups of a static build.** StaticModel: invariant over all histories of API calls that the saved flags agree with the log (initialised); independence of instances is refuted ("initialized = .false." clears the flags of all instances).
- **C78 Calls before init are reported.** StaticModel: refuted for every host model: the refused group function returns ierr 0 and the API then overwrites the error flag with it; only the message survives.
- **C79 Suite-level init and finalize schemes.** StaticModel: refuted for every host model: the finalize group has no init stage, so its flag is never set and its scheme is never called; the init group has no finalize stage, so its scheme runs once per instance.
- **C80 A failing scheme ends the static API call.** StaticModel: induction over statements, groups and suites; behaviour of schemes is an arbitrary function of the log.
- **C81 Subcycles of a static build.** StaticModel: the log of a successful call is computed exactly; loops below 1 make one pass (refuted).
- **C82 Wrapped argument lists keep every argument in order on lines of bounded length.** PassModel.wrapped models create_argument_list_wrapped, wrapped_explicit the keyword version. C82_wrapped / _explicit / _line_length by induction over the argument list (chunks of lines).
- **C83 The statements around a scheme call convert units both ways and leave nothing behind.** PassModel.pass gives the statements around one scheme call their Fortran meaning on (host, temporary, pointer). Case analysis over the finite configuration with the values and the scheme universally quantified; refuted for conditional intent(out) and for pointers after intent(in).
- **C84 Unit conversions of array sections apply to the section.** PassModel.rhs_in is the text written; compared with the template applied to the section text for all 34 templates of the table.
- **C85 Blocked data reach every scheme as one contiguous array and come back to their blocks.** PassModel.blocked_group: copy loops with the running index; induction over blocks and over the calls; refuted for mixed intents because the statements after the call are those of the first scheme.
- **C86 The intents declared for cap arguments are those of the uses.** PassModel.group_intent / suite_intent as folds over the uses; invariant by induction from the end of the list.
- **C87 The build-system file lists follow the last run.** MkModel.v: texts of the snippet files, and the write/compare/rename protocol as a list of file operations that can stop anywhere; injectivity of the makefile text over sorted one-line lists gives currency over histories; other suffixes and kills refuted
- **C88 Generated caps are rewritten exactly when needed.** MkModel.v write_cap, write_groups, write_suite, write_all with run numbers as time stamps; content, untouched and propagation by induction over groups and suites; history invariant; kill refuted
- **C89 Requested variables agree with those of the host.** PreModel models the two merges (per file, then across files), Var.compatible and compare_metadata over dictionaries with explicit exceptions. Invariant by induction over files, tables and variables: each entry of the collected dictionary holds exactly the requests of its name and they agree pairwise. The comparison is then shown exact in both directions when no character variable is requested.
- **C90 Unit conversions are registered for exactly the requests that need them.** The registered template is looked up in the modelled table of conversion functions (UnitModel), whose entries are checked once against an independent SI table; the statements then hold for all rational values.
- **C91 A suite definition file is read as written.** SelModel models Suite.parse over the parsed XML, with the loop variable that survives from subcycle to subcycle and the exceptions of missing attributes. Both directions by induction over elements and subcycles.
- **C92 The variables of the suites are kept and the others dropped.** Models the text search and the five text replacements literally; occurrence lemmas show what they do to every clean name, and the last-underscore argument shows that two routines never share an abbreviation.
- **C93 The files to compile are those of the suites.** Direct induction over files and dictionaries; last_file says which file wins when a scheme has tables in two files.
- **C94 The list of type-definition modules is complete.** Induction over the dictionary with the accumulated list.
- **C95 Scheme arguments agree with their metadata.** HdrModel models the comparison literally (the index arithmetic with flen, the truth value of the found index, the dimension test that is always true, the unbound name in the error path). Soundness and completeness by showing that an empty error list means each index is right, then counting the optional extras.
- **C96 Host and type definitions agree with their metadata.** Same model; for unordered tables without array references. Counterexamples for host tables (all variables) and array references.
- **C97 All routines of a file are checked.** Induction over the metadata headers with the shrinking list of Fortran headers; permutation of what is used and what is left.
- **C98 Table names are unique across files.** Induction over files with the two dictionaries.
- **C99 Clean removes the generated files.** File system as a set of paths; normpath modelled on components. The datatable theorem holds for every XML text whose lines are tags.
- **C100 The Fortran file of a metadata file.** rfind and the search over the four extensions, for every base.
- **C101 The datatable file holds the tree that was generated.** XmlModel.v models ET.tostring, the three regular expressions (by derivatives, Regex.v) and the scanning loop; XmlSpec.v gives a grammar of XML texts. Proved: the output is a closed-form layout, by induction on the tree; the layout reads back as the tree; the grammar is unambiguous.
- **C102 Exactly which trees the datatable writer can write.** Same model: the loop raises exactly on the unprintable trees, by the same induction.
- **C103 File and suite queries return what was generated.** DfModel.v models the generator's sections and the queries over the tree read back; composed with C101 so that the statement goes from the generator's inputs to the report's text.
- **C104 The dependency query lists every dependency once.** As C103; sorted/set lemmas.
- **C105 Module and process queries.** As C103; the lookup of headers by title; refutation by a concrete run.
- **C106 Every argument of every scheme has exactly one source.** ResModel: match_variable, the call-list and group dictionaries, promotion to the suite (Suite.find_variable), Suite.analyze over groups, for scalar arguments. Proved by an invariant over every step of the analysis (ResProofs.inv).
- **C107 A variable the host lacks is defined before it is used.** ResModel: match_variable, the call-list and group dictionaries, promotion to the suite (Suite.find_variable), Suite.analyze over groups, for scalar arguments. Invariant for the first use; converse by a progress proof over all steps (ResNames.groups_total).
- **C108 The intent of a group dummy argument covers all its uses.** ResModel: match_variable, the call-list and group dictionaries, promotion to the suite (Suite.find_variable), Suite.analyze over groups, for scalar arguments. Invariant that joins intents of uses.
- **C109 Fortran names within a group are distinct.** ResModel: match_variable, the call-list and group dictionaries, promotion to the suite (Suite.find_variable), Suite.analyze over groups, for scalar arguments. Invariant that every entry keeps the name of an argument; counterexamples refute the general claim.
- **C110 Uses of a variable are checked for compatibility.** ResModel: match_variable, the call-list and group dictionaries, promotion to the suite (Suite.find_variable), Suite.analyze over groups, for scalar arguments. Invariant for later uses; counterexamples by evaluation.
- **C111 Loop variables: run phases only, and consistent bounds.** ResModel: match_variable, the call-list and group dictionaries, promotion to the suite (Suite.find_variable), Suite.analyze over groups, for scalar arguments. run_loops models the assignments written before the calls; ordering invariant on registered loop actions.
- **C112 The call of a scheme passes each argument once, by name.** ResModel: match_variable, the call-list and group dictionaries, promotion to the suite (Suite.find_variable), Suite.analyze over groups, for scalar arguments. call_string; the call list of a scheme shown equal to its metadata.
- **C113 A Fortran declaration gives exactly its variables.** DeclModel.v models the parser of declaration lines (Ftype, FtypeCharacter, FtypeTypeDecl, ftype_factory, parse_fortran_var_decl); DeclSpec.v gives the grammar of declarations as text built from pieces. Proved by computing the parser on an arbitrary line of the grammar (lemmas on stripping, splitting and re-assembling lists).
- **C114 Character declarations are recognised in every legal form.** Same model. Proved: lengths in parentheses (C113) and the plain word; refuted universally: every other continuation of the word is rejected.
- **C115 Derived type definitions are recognised with their attributes.** type_def_line of DeclModel.v against the two forms of definitions in DeclSpec.v; refuted universally for names beginning with type.
- **C116 Statements that are not declarations declare nothing.** Same model: every prefix test fails, so nothing is declared. Refuted universally for glued type words.
- **C117 Initial values do not change what is declared.** Corollary of the computation for C113; counterexamples by evaluation.
- **C118 The table of a documented routine lists exactly its dummy arguments.** ModModel: the statement scanner (modules, specification parts, types, subroutines). ModSpec describes texts of statements and the structure of modules without the scanner. Proof: runs over the pieces of a file (ModScan, ModRun), the order of the arguments from the permutation.
- **C119 A file with one module yields the tables of its types, its variables and its routines, in order.** Induction over the structure of the module in ModSpec, run by run.
- **C120 Files with several modules report everything every module contains.** The tables by induction over the modules; the additional routines of all but the last module are lost: proved for every pair of modules (C120_refuted).
- **C121 Modules and announcements are recognised as Fortran has them.** Each deviation proved for all surrounding text: an end with another spelling of the name is an error, a subroutine directly after its announcement is not found, a file without modules is an error, a bare end module does not end the module, a module without contains is never left.
- **C122 The constituents of a generated host cap.** RegModel models the generation (clones, dimension checks, tendencies, index names) and what the generated routines do; RegSpec says which names are regular and which variables are chosen. Invariant over the list of variables (RegProofs), then the array of names and the lookup of each entry.
- **C123 Registration of constituents by a generated host cap.** RegRun: the suite routines produce exactly the objects of the metadata; mc_initialize puts the object into the state the simulation of C01-C06 starts from whatever went before; the new_field calls are simulated one by one; the locked table gives the indices.
- **C124 Queries of the constituents of one suite.** Invariant of the module data of the suite cap; the error paths are computed for all indices.
- **C125 Registering again after a clean-up.** data_locked is preserved by every routine; a data-locked object refuses every new field.
- **C126 Dispatch in the generated host cap.** HcModel generates the lines of ccpp_physics_<stage> (suite_part_list, suite_part_call_list, write_host_cap) and gives them a meaning: a machine for if / else if / else / end if with a stack of frames, calls, allocatable arrays; text that is not well nested has no meaning. Proved by induction over the chain of branches (HcProofs) for all suites, names and callees.
- **C127 Arguments passed by the generated host cap.** Same model; the generator's scan of all dummy arguments is a fold over all parts, proved equivalent to the stated condition; the arguments of each executed call are related to the dummies one by one.
- **C128 Registration of run-time constituents through the host cap.** Same machine with allocatable local and module arrays (size of, deallocation of and packing into arrays that are not allocated or too short have no meaning); the packing loop proved by induction over the arrays.
- **C129 Inspection agrees with dispatch.** The lines of the three inspection routines run by the same machine, with character(len=k) assignment; round trip theorem between the part list and the run stage.
- **C130 A scheme receives its arguments converted to its own units, kind and vertical orientation.** VtModel models the statements written around a scheme call (transforms, pointer associations, the call with its actual arguments, copies back) and a small-step meaning over named storage (allocated, unallocated, pointers, undefined values; arrays along the vertical of one column, exact rational values); VtRun executes the blocks with frame lemmas; VtProps derives what the scheme sees.
- **C131 What a scheme computes is converted back into the host's variable, and nothing else changes.** VtModel models the statements written around a scheme call (transforms, pointer associations, the call with its actual arguments, copies back) and a small-step meaning over named storage (allocated, unallocated, pointers, undefined values; arrays along the vertical of one column, exact rational values); same run; the round trip uses C16.
- **C132 A scheme's intent(out) result reaches the host in the host's units.** VtModel models the statements written around a scheme call (transforms, pointer associations, the call with its actual arguments, copies back) and a small-step meaning over named storage (allocated, unallocated, pointers, undefined values; arrays along the vertical of one column, exact rational values); the same run shows the overwritten result for non-optional outputs (refuted) and the right one for optional ones.
- **C133 An optional argument that the host has switched off is absent in the scheme, one that is switched on is the host's variable.** VtModel models the statements written around a scheme call (transforms, pointer associations, the call with its actual arguments, copies back) and a small-step meaning over named storage (allocated, unallocated, pointers, undefined values; arrays along the vertical of one column, exact rational values); absent/present from the run; the inactive transformed case by showing that every execution stops at the read of the unallocated variable.
- **C134 Transforms and optional arguments work for variables of the group and for variables named differently by different schemes.** inversion of the generator model: no code for such groups; the wrong association by executing the code for the argument.
- **C135 Optional arguments of different schemes of a group do not interfere.** execution of the code of two schemes in sequence with the pointer state kept between them.
- **C136 A condition in standard names becomes the same condition in local names.** ActModel models the regular expression (alternatives in order, unescaped dots as wildcards), findall and Var.conditional; ActSpec defines token lists and their image; proof by induction over the tokens with a lemma per operator.
- **C137 A condition that cannot be represented is rejected, not altered.** general theorem that a foreign character not followed by a lower-case letter is dropped (refutation), and a theorem that quoted texts are reported.
- **C138 Letter case is not significant in conditions.** theorem for names; general refutation for every operator in upper case at any position.
- **C139 The conditional statement around an optional argument is a legal if-then statement.** if_line models the two generated lines; legality is a parenthesis walk; refutation for .true. and single names, positive theorem for conditions with outer parentheses.
- **C140 A prebuild group cap gets exactly the extra host variables it needs.** requirements models mkstatic.py L1130-L1213; the accumulated list is characterised by an inductive predicate `wanted`.
- **C141 Host variables a prebuild cap needs but the host does not define are reported.** theorems in both directions about success of requirements, and a refutation for the names added unchecked.
- **C142 The variables a host variable's Fortran name refers to are found at any depth of subscripts.** ParModel.parents_and_indices models the loop that removes innermost parentheses; ParSpec.ref is a grammar of Fortran references with the set of variables in subscripts; induction over forests of parentheses (ParProofs).
- **C143 The subscripts of an actual argument combine the host's indices with the scheme's sections.** ParModel.dimensions_of and subscripts; grammar ParSpec.ref, ParSpec.merged says how sections and indices combine. The nested-comma failure is proved for all names with such a subscript.
- **C144 The arguments of a prebuild cap are the host variables its schemes' variables are parts of, with the right intent.** ParModel.stage/group/suite model the collection of parents and intents; invariant `good` over the history of visited variables (ParGroup), `up` for nothing-else; specification: Fortran references and `needed` (ParSpec).
- **C145 The bounds of the arrays a prebuild cap declares are available in the cap.** Same invariant with the bounds found in the first pass and visited in the second; counterexample of depth three for the refutation.
- **C146 A debug check does no harm to a correct host.** DbgModel.write_check models the generation, run_check the generated code on arrays with bounds; DbgSpec.declares gives the declared bounds by standard names.
- **C147 A debug check reports every array of another size.** Same model; product of the extents against the product of the declared lengths.
- **C148 Debug checks respect activity and intent, and stop before the scheme.** Same model; lists of checks followed by the call.
- **C149 Argument lists and declarations of prebuild caps agree.** ArModel: declarations and argument lists; ArSpec.declares describes a declaration; proof by inversion of the folds.
- **C150 Bounds are declared before the arrays that use them.** the scalars are a prefix of the order; refutation by a bound that is a component.
- **C151 Kinds and derived types are imported once.** invariant of the list of names already imported; refutations by examples.
- **C152 Local variables and pointers of prebuild caps are declared once.** ArSpec.local_texts describes the local declarations; injectivity of the name of the pointer type; refutations by examples.
- **C153 The host cap imports exactly the host module variables that are used.** HmModel.v: HostModel.__init__, add_variable, find_variable with its use meter and recursion over subscripts (regular expression of CheckModel.v), variable_locations, on the dictionaries of DdtModel.v. HmSpec.v: inductive definition of the standard names reached from the requests by subscripts. Induction over the construction (invariant: the dictionaries are those of the variables and component lists so far), over the recursion of searches and over the sequence of searches.
- **C154 Every host variable that is used can be accessed in the host cap.** Same model with call_list; the lists are characterised exactly, each used variable is in exactly one of them. Refuted where the local name is an array reference: the whole reference is written after 'only:'.
- **C155 Exactly the consistent host descriptions are accepted.** Soundness and completeness of the construction against the specification 'consistent', by induction over tables and variables, using the exact characterisation of component collection of C71.
- **C156 The loop variables of all host tables are kept.** From the invariant of the construction: with one host table the loop variables are exactly the expected ones; with several, those of all but the last host table with loop variables are lost, for every such description.
- **C157 Array-reference names take the variable's dimensions.** CsModel.handle (regular expression of the local name, then the loop over the subscripts); equivalence with the relation filled of CsSpec and with equality of the numbers of colons and dimensions.
- **C158 Arguments of a run-phase call are the sections the caller asks for.** CsModel.call_string with loop variables. CsSpec gives Fortran meaning to texts (eval, denotes: a memory from names and subscripts to integers) and meaning to metadata (refers, std_val, dim_val) independently; the text produced denotes the section the metadata mean, for all memories; conversely whatever has a meaning is written with enough recursion depth. Refuted for components of a structure that is an element of an array: its subscript is not translated.
- **C159 Arguments of the other phases are whole objects.** The same without loop variables.
- **C160 Arguments that cannot be written are reported.** By a rank on standard names: with acyclic subscripts every outcome is a text or CCPPError; unknown names never give a text. Refuted for a cycle: Python's RecursionError.
- **C161 Dimension strings have one entry per dimension, from the first dictionary that has it.** CsModel.call_dimstring; meaning of the text appended to the name; completeness; outcomes. Refuted for numeric bounds, which call_string accepts and call_dimstring does not.
- **C162 Dummy arguments are declared as the metadata say.** WdModel: write_def as the text passed to outfile.write, from the record of properties it reads; WdSpec: readable types, object names, declared intents and the rules of Fortran on attributes; the text is shown to be a DeclSpec.declaration, and composed with C113 to read it back. Refuted: optional is lost for allocatable outputs; the target property together with optional gives target twice.
- **C163 Local variables and suite variables are declared allocatable or scalar.** Same model, local modes. Refuted: a requested target is ignored for scalars (the local copies of optional scalar arguments are associated with pointers); a local array that is not allocated gets an open shape without allocatable or pointer.
- **C164 Every variable of a call list is declared once, or the generation ends with an error.** Exact conditions of the outcomes of write_def; declare_variables and VarDDT.write_def by induction over the dictionary and over the chain of components.
- **C165 Optional arguments get a matching null pointer.** write_ptr_def and the way a group computes its arguments; declaration in the sense of DeclSpec and composition with C113.
- **C166 A ccpp_prebuild cap passes the section of the host array that the scheme asks for.** Sz{Model,Spec,Proofs,Props}: mkstatic.py L1346-L1517 function by function; SzSpec says which elements are asked for (`asked`), what a subscript selects at run time for a host state E, and where sections are placed; proved by inversion of the generated texts for all dimensions and E.
- **C167 The array passed by a ccpp_prebuild cap has the rank the scheme declares.** SzProps: rank of the selected sections equals the number of dimensions when no dimension has equal bounds; a dimension 1:1 is refuted (an index is written).
- **C168 The debug size checks of ccpp_prebuild caps report arrays of the wrong size and only those.** SzProps: for all E and all bounds of the host's array the two sides of the check have the same value if no extent is negative, so no false alarm (C168_never_fires) and no report (C168_reports_refuted); a negative extent and a signed lower bound are refuted.
- **C169 ccpp_prebuild refuses arguments whose dimensions are unknown or belong to another phase.** SzProps: inversion (C169_known, C169_phase) and construction (C169_accepts); refuted for horizontal_loop_extent outside run and for host variables without horizontal dimension.
- **C170 Host variables get their full Fortran names in ccpp_prebuild.** Ln{Model,Spec,Proofs,Props}: ccpp_prebuild.py L207-L284 and L309-L326 with the state (metadata, converted_variables) threaded; LnSpec.full_name says what the name is, independent of state and order; an invariant of the state is preserved by every recursive call.
- **C171 The full names of host variables do not depend on the order of the metadata.** LnProps: from C170 and the uniqueness of full names; success in one order gives success in every other.
- **C172 Host metadata that cannot be converted are reported.** LnProps.C172_exactly in both directions; refuted: cyclic subscripts recurse for every fuel, and the errors that are detected are returned as two values or none where the caller takes three.
- **C173 Metadata of ccpp_prebuild is exactly the table's variables.** NmModel.read_new_metadata; NmSpec gives the sections of the table, the description of a variable, the words of a condition and the container as relations; induction over variables, sections and headers.
- **C174 Tables ccpp_prebuild accepts.** Both directions of acceptance are proved for every table; the refuted theorems show the AttributeError for an optional host variable, and that the dimension checks never fire on ranges, the only form the parser delivers.
- **C175 Dependencies ccpp_prebuild takes from metadata.** Same induction, with os.path.join specified as a relation on paths.
- **C176 ccpp_prebuild finds exactly the scheme subroutines of a file.** PsModel.find_modules and scan_line; statements are described by relations on the text (PsSpec); both loops by invariants over the processed lines.
- **C177 The arguments of a scheme subroutine come from its own metadata table.** PsModel.find_table and table_args, combined with C173 for the metadata table; the search upwards by induction on the line.
- **C178 ccpp_prebuild reads continued lines as one statement.** PsSpec.logical describes statements as blocks of continued lines; the loop is shown to compute it and it is shown to be a function.
- **C179 Each local variable of a group's subroutine is declared once, as what it is.** AlModel.classify and add_transform fold over the declarations; the theorem gives the four lists as filters.
- **C180 The local arrays of a group are allocated with the bounds of their metadata and freed.** AlSpec gives the effect of allocate and deallocate statements on a heap of bounds; induction on the statements.
- **C181 A group's subroutine has a pointer for every optional argument.** AlModel.group_pointers against the call list and the inactive list, up to the order of the set.
- **C182 A variable is created exactly from a legal description.** rocq/theories/Vr{Model,Spec,Proofs,Props}.v: the dictionary, the property tables, valid_value with the check functions of CheckModel, the constructor, defaults, adjust_intent, clone. make_var succeeds iff the separate relation `legal` holds (each value one constructor of `valid`), for every dictionary without duplicate keys.
- **C183 Properties that are not given have their documented defaults.** rocq/theories/Vr{Model,Spec,Proofs,Props}.v: the dictionary, the property tables, valid_value with the check functions of CheckModel, the constructor, defaults, adjust_intent, clone. get_prop_value against a table of defaults; the long name character by character; the kind by the words of the type.
- **C184 Adjusting the intent and cloning keep a variable legal and unchanged otherwise.** rocq/theories/Vr{Model,Spec,Proofs,Props}.v: the dictionary, the property tables, valid_value with the check functions of CheckModel, the constructor, defaults, adjust_intent, clone. adjust_intent characterised by given/not given intents; clone through the constructor with C182.
- **C185 A prototype metadata file written for Fortran headers is read back as those headers.** WmModel follows the writes of write_metadata_file, a file being its lines; WmSpec says what the file means (groups_read); WmProofs cuts the lines into tables, sections and variables and shows that MetaSpec.file_means holds, and C73_parse gives the reader's result. The two meanings agree (one_reading).
- **C186 Bounds without a standard name get new placeholders in a prototype metadata file.** Induction over the bounds and dimensions of a variable with the counter of unique_standard_name.

## Trusted base

- Coq 8.16.1 kernel (and vm_compute conversion for examples/witnesses).
- `Print Assumptions` of every property theorem: *Closed under the global
  context* (no axioms); any exception is listed below.
- The reading of the source: the theorems are about the model; nothing was run.
  Every definition cites the lines it models and states its simplifications.
- Not modelled: Python/Fortran runtimes, the file system beyond finite maps,
  regular expression engine (matches are written out as character predicates),
  XML parser, floating point rounding (exact rationals are used), logging.
