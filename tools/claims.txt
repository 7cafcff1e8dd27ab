C01 proved
C01_string_literal_backslash
Every non-reference str, every backend, any text following.

C02 proved
C02_string_literal_standard
Includes the exact condition under which the literal denotes the original string.

C03 partial
C03_value_never_code_refuted C03_value_never_code_partial
The full statement is false of the code: a str of quoted-reference shape with doubled quotes leaves the quotes (witness). Proved for every str without two adjacent quote characters.

C04 proved
C04_identifier_quoting C04_names_with_quotes_refuted
Names with the backend's quote character inside, excluded by the property, are shown to be unsafe.

C05 proved
C05_reference_idempotent
For every name without the quote character.

C06 proved
C06_which_strings_are_references C06_no_quote_is_value
Grammar of references given separately in SpecRef.v.

C07 proved
C07_integers_exact C07_booleans
Every integer reads back exactly; booleans use the backend's boolean.

C08 proved
C08_five_decimals
Finite floats and Decimals of any magnitude.

C09 proved
C09_bytes_lossless
All backends.

C10 proved
C10_date C10_datetime
All calendar-shaped dates and times.

C11 proved
C11_sequences C11_empty_rejected
All sequence types except generators (a generator is consumed by rendering).

C12 proved
C12_in_with_none C12_plain_sequence_is_in C12_empty_rejected C12_wrapped_list_refuted
Three-valued logic and the meaning of IN given in SpecLogic.v. A list wrapped in V(...), outside the property, is shown to lose the NULL rows.

C13 proved
C13_not_in_with_none
As C12, for NOT IN.

C14 proved
C14_none_is_null C14_scalar_equals C14_others_rejected C14_wrapped
All values that are not SQL objects.

C15 proved
C15_relation_types
Iff, against a table of documented types (SpecRelations.v).

C16 partial
C16_boolean_structure_partial C16_empty_q_refuted C60_condition_read C71_select
Parsed with an independent grammar over condition items (C16_boolean_structure_partial), down to the characters of the whole text (C60_condition_read), and for programs that combine Q objects with &, |, where (C71_select). An empty Q inside a combination breaks the text (witness), so the property as stated is false of the code there.

C17 proved
C17_where_accumulates_select C17_where_accumulates_update C17_where_accumulates_delete
Every history of calls (any calls, failing or not), for WHERE and HAVING; ON conditions are covered by C38.

C18 partial
C18_conditions_lost_refuted C18_pairs_kept_partial C18_objects_kept_partial C18_keywords_lost_exactly C18_clause_shows_all
False for mixtures: where({'a': 1}, b=2) and where(Q(), b=2) drop the keywords (witnesses). These are the only losses: every positional condition of an accepted call is kept, and every keyword but beside a single dict or beside Q objects, where keywords are not read at all (C18_keywords_lost_exactly).

C19 partial
C19_duplicates_refuted C19_objects_refuted C19_duplicates_partial C19_same_text_partial
False in general (witnesses: 1 and True on PostgreSQL; a str equals every SQL object with that text, so where(a='NOW()') is lost after where(a=C('NOW()'))). Proved: for str/int/None data the very same condition is there; with SQL objects a condition of the same text is there, unless a bool, float, Decimal, dict or set occurs, an SQL object stands beside a str that is its text, or an ON is mirrored.

C20 proved
C20_pair_arguments C20_alias_arguments
Iff against the relational contract of SpecArgs.v, which also fixes the error raised.

C21 partial
C21_short_items_refuted C21_scalar_items_partial C65_select_arguments C65_update_arguments C65_delete_arguments C65_insert_arguments
False for one-element tuples, which are padded with None (witness). Proved for scalar items. Exactly which calls are accepted and how each item is read is C65.

C22 proved
C22_order_irrelevant C22_on_duplicate_key_update
All methods that accept keywords, on all query types.

C25 partial
C25_limit_offset C25_limit_any_history C25_limit_accepts C25_offset_accepts C25_rejected_first_argument C25_rejected_changes_refuted C43_limit_partial
Full refinement over histories; the last clause (a rejected argument changes nothing) is false for limit(5, True), whose limit is applied before the offset is rejected (witness), and proved when the first argument is the rejected one; the exact effect of every rejected call is C43_limit_partial.

C26 proved
C26_select_options C26_any_history C26_exclusive C26_alphabetical
Every history of calls.

C27 partial
C27_off_affects_others_refuted C27_off_exactly
False inside a group: distinct().all(False) removes DISTINCT (witness). Proved: exactly what switching off does, after any calls: the options of that group disappear and nothing else changes.

C28 proved
C28_delete_needs_confirmation
Every history of calls.

C29 proved
C29_update_needs_confirmation
Every history of calls.

C30 partial
C30_vacuous_condition_refuted C30_no_condition C30_no_condition_later C30_delete_exactly C30_update_exactly C30_q_objects
False for an empty Q (witness). Exact: where() adds no condition iff it asks for nothing (C30_no_condition), and an unconfirmed query gets a blank WHERE iff its only condition is one of the blank SQL objects listed in SpecVacuous.blank: C(''), R(''), R('.'), Q(), and V, R or Q around them.

C23 proved
C23_columns C23_columns_data C23_columns_text C23_no_duplicates
Every history, failing calls included, any arguments, any backend at each call; "distinct" is Python's == at the time of the call (C23_columns). For arguments that are data it is identity (C23_columns_data). The text: C23_columns_text.

C24 proved
C24_order_by C24_group_by C24_no_duplicates C24_group_no_duplicates C24_order_by_data C24_group_by_data C24_order_text
Every history, failing calls included, any arguments, any backend at each call; which column is mentioned again is Python's == at the time of the call. For columns that are text or int it is identity (the _data theorems).

C31 proved
C31_select_text C31_call_order
Iff against the text specification of SpecClauses.v, and invariance under exchanging calls for different clauses.

C32 partial
C32_rectangular C32_last_value_refuted C32_one_row_partial C32_row_any_partial C32_row_objects_partial C33_comparable
Rectangular text proved for every history. That the last value counts is false when a value comes back (witness); exactly which value counts is proved (newest_value, SpecSet.v) for all data, numbers of all types included (1 == True == 1.0), and for all SQL objects that == can be relied on for (comparable, SpecSet.v), which all data and all printable C, V, R, function, Not and Exists objects are (C33_comparable). Missing: objects that cannot be printed or whose == is not an equivalence.

C33 partial
C33_last_assignment_refuted C33_set_partial C33_set_any_partial C33_set_objects_partial C33_comparable
False: set(a=1).set(a=2).set(a=1) leaves a = 2 (witness). Exactly which value every column is left with is proved: the one that was the last to be given for the first time (newest_value, SpecSet.v), for all data, numbers of all types included, and for all SQL objects that == can be relied on for (comparable, SpecSet.v), which all data and all printable C, V, R, function, Not and Exists objects are (C33_comparable). Missing: objects that cannot be printed or whose == is not an equivalence.

C34 proved
C34_joins C34_nothing_lost C34_nothing_invented
Iff against the relation merged of SpecClauses.v; two consequences of it proved separately.

C38 proved
C38_needs_table C38_on_needs_join C38_join_attached_select C38_join_attached_update C38_join_attached_delete C38_failed_join_changes_nothing C38_on_attached
Every state of the three query types.

C49 proved
C49_into_outfile
Every history of the four calls.

C52 proved
C52_update_text
Iff, every history.

C53 proved
C53_delete_text
Iff, every history.

C54 proved
C54_insert_text
Iff, every history.

C40 partial
C40_full_join C40_never_ignored_refuted C40_conflict_syntax_refuted C40_on_duplicate_partial C40_on_duplicate_history
FULL JOIN proved as stated. on_duplicate_key_update is ignored silently under the default backend and renders no SET under PostgreSQL (witnesses); what it does is proved for MySQL, PostgreSQL and SQLite.

C41 proved
C41_one_call C41_unambiguous C41_history
Every history of configure calls. Hypothesis lower_ok: Python's lower() maps no non-ASCII character into a database name.

C42 partial
C42_text C42_structure_refuted C42_faithful_partial C63_union_tails_refuted C63_union_tails_partial
False for right-nested mixtures (witness). The text is proved for every expression, and exactly which expressions are read as meant. Operands with ORDER BY or LIMIT: C63, exact.

C48 proved
C48_built_alike C48_not_for_objects
All four query types, any change of backend between calls, data and SQL objects not compared by text. For C, V and functions it is false (witness C48_not_for_objects), which is outside the statement.

C39 proved
C39_equal C39_decided C39_equivalence C39_joins C39_not_for_objects
Conditions between column names, and joins of named tables with such conditions. With C objects symmetry is lost (witness C39_not_for_objects), which is outside the statement.

C51 partial
C51_reflexive_refuted C51_same_text_refuted C51_reflexive_partial C51_equal_same_partial C51_equal_text_partial
Both halves are false in general (NaN; 1 == True == 1.0, mirrored ON, conflict column, permission to delete all). Proved: reflexivity where everything compared by text can be rendered and no NaN, set or dict occurs; equal queries of exact data are identical but for the fields not compared. Equal queries, conditions and assignments with C, V, function, Not, Exists and Q objects in them have the same text, unless one of the listed confusions can occur (distinguishable, SpecSame.v).

C43 partial
C43_unchanged_refuted C43_one_item_partial C43_several_items_partial C43_insert_partial C43_conditions_partial C43_limit_partial C73_dict_order C73_mixed_refused
False for calls with several items (witness: the items before the failing one stay), limit(n, bad) and on_duplicate_key_update on PostgreSQL. Proved: calls with one item, and insert.values with any number, change nothing; otherwise the effect is exactly that of the items before the failing one. This covers every call of every builder, several Q objects and on_duplicate_key_update included. A dictionary that has SQL objects among its keys is first replaced by the tuples of its entries (C73_dict_order) or refused (C73_mixed_refused). Missing: keys the model does not order (dates, objects with one text).

C44 partial
C44_library_exceptions_refuted C44_library_exceptions_partial C44_objects_partial C44_causes
False for integer sort directions, SQL objects as limits, dictionaries with mixed keys and on_duplicate_key_update on SQLite (witnesses). Proved for all other calls in programs with data and any SQL objects that print for every backend (C44_objects_partial), or that are not compared by their text (C44_library_exceptions_partial). For programs with any SQL objects, every exception is classified by its cause (C44_causes), without exception. Python's str() of foreign data is assumed not to raise.

C47 partial
C47_word_refuted C47_select_partial C47_plain_word C47_select_set_partial C47_select_options_partial C47_switches_partial C47_update_partial C47_delete_partial C47_insert_partial C47_ignore_partial
False for has('select_for_update', word), which asks for an attribute of that name, for has('keyword') of an insert, which raises, and for words with special characters, as a dot stands for any character (witnesses). Proved for all other parts of all four query types, all option names and every object given as the word; its text is read as a pattern of characters, dots and escaped characters, which is the word itself if no special character is in it (C47_plain_word). Words with repetitions, groups, alternatives and anchors are C97. Missing: words with character classes in square brackets, counted repetitions and the other escapes of re.

C50 proved
C50_aggregates C50_columns C50_concat C50_group_concat C50_convert C50_convert_made
All arguments and all histories of distinct, order_by, separator and to calls. concat() without columns shows * and convert without a type shows None.

C35 partial
C35_render_again_partial C35_render_twice_partial C35_any_backend_partial C35_refuted C35_backend_refuted
False when a table with two joins is inside a joined table (witness). Proved for every query whose own tables have any joins, while the tables inside joins, conditions, lists and dicts have none to merge. Earlier renderings may have been for other backends when joins are compared without rendering SQL objects (witness that this is needed).

C36 partial
C36_unchanged_partial C36_select_partial C36_update_partial C36_delete_partial C36_insert_partial C36_refuted
False: str() merges joins inside the query, so a later on() attaches to another join (witness). Proved for all four query types and every history in which no on() follows a rendering before a new join, and no two equal joins are outer joins of different kinds. The excluded case, a table outer joined twice on the same conditions in two kinds, is false too (second witness of C36_refuted).

C37 partial
C37_refuted C37_arguments_partial
False for join and its variants: a dictionary with one entry is emptied (witness). What holds, on the objects of HeapBuild.v: an argument is as it was unless it contains the query itself, a generator (used up by iterating) or that dictionary. Rendering is C36.

C46 proved
C46_copy_succeeds C46_copy_is_the_same C46_copy_is_independent C46_histories
Object graphs of any shape and size, with cycles; the algorithm is that of the standard library's copy module, which Object.copy calls. Later operations are arbitrary programs that reach objects through references. Stated for heaps in which no set contains itself; a query holding a generator cannot be copied (TypeError), and arbitrary user objects inside values are not modelled.

C45 partial
C45_values_are_literals_partial C45_code_independent_partial C45_joins_refuted
Every query of any size and nesting without custom SQL and with quote-free names. False when a table is joined twice to the same table under the same alias: equal ON conditions are merged, so the code depends on the values (witness). Missing besides: string values that are themselves quoted references (C06), joins of one table that differ only in SQL objects, and empty lists, Q() and dictionaries in value positions.

C55 proved
C55_condition_truth
The server is SpecSql.v: tokenizer, parser and three-valued evaluation, written without reference to the library. Outside the class considered: custom SQL, nested selects, infinities and NaN, GROUP_CONCAT, CONVERT, EXISTS; names containing quote characters and strings shaped like quoted names (C06).

C56 proved
C56_delete_rows C56_delete_statement
Execution on one table; deletes with several tables or joins up to the statement read. Same class of conditions as C55.

C57 proved
C57_update_rows C57_update_statement
Execution on one table; updates of several tables or joins up to the statement read. Same class of conditions as C55.

C58 proved
C58_insert_rows C58_insert_statement
INSERT and REPLACE into one table up to the statement read, execution for INSERT; without an update on a duplicate key (see C54). Columns are plain names without dots.

C59 proved
C59_select_statement
Up to the statement read. Two joins of one table under one alias are excluded, because rendering merges them (C34).

C60 proved
C60_query_read C60_condition_read
The reader is SpecNested.v, written without reference to the library; which query an object stands for is SpecSays.v (inductive, no rendering involved except the merging of joins, C34). Excluded: custom SQL, names containing quote characters, strings shaped like quoted names (C06), the union operands of C63 and C42, the option order of C64, empty lists.

C61 proved
C61_statement_read
Same class. Column names of an insert are plain names without dots; ON CONFLICT (PostgreSQL, SQLite) is covered by C54 only.

C62 proved
C62_same_text
Follows from C61; the same class of queries.

C63 partial
C63_union_tails_refuted C63_union_tails_partial
False (witness): operands are written without brackets. Exactly what happens is proved for unions of any size and nesting: the text is accepted if and only if no SELECT but the last has one of these clauses, and those of the last apply to the whole union.

C64 partial
C64_outfile_options_refuted C64_outfile_options_partial
False (witness): LINES TERMINATED BY is written before OPTIONALLY ENCLOSED BY, which MySQL's grammar does not allow. Exactly which options work is proved for every history: those with OPTIONALLY ENCLOSED BY need FIELDS TERMINATED BY and no LINES TERMINATED BY; they are then read as asked for last, the other combinations are not accepted.

C65 proved
C65_select_arguments C65_update_arguments C65_delete_arguments C65_insert_arguments C65_table_arguments C65_sort_arguments
For every state and world; the third case of judged is an exception raised by a comparison of two objects (rendering one of them failed), see C44. join is C38, limit and offset are C25, INTO OUTFILE is C49; the relation objects are C15. on_duplicate_key_update on the other backends is C40.

C66 proved
C66_select_order C66_update_order C66_delete_order C66_objects_last
About the lists kept in the query; C31, C52 and C53 show them in the text in the same order. For order_by and group_by only the order of the columns, their directions are C24.

C67 proved
C67_delete
From the arguments of the calls to the rows. Class of programs: SpecProgram.v (data are None, int, date, datetime, text not shaped like a quoted name, and bool except on PostgreSQL, where True and 1 are de-duplicated although they differ, C19). The server is SpecSql.v: three-valued logic, any comparison.

C68 proved
C68_update
Same class; values may also be bytes. A value of a column that comes back after another one is excluded (C33). A server that rejects two assignments of one column (PostgreSQL) is only asked about statements it accepts.

C69 proved
C69_insert
Same class. values(...) without any column in all rows is excluded (the INSERT has no columns then).

C70 proved
C70_select
Same class, one table, no GROUP BY, HAVING or joins (C59 covers these up to the statement read). Negative limits and aliases equal to a column of ORDER BY are excluded, since servers treat them differently. The answer is a relation: every order of the rows that respects ORDER BY is possible.

C71 proved
C71_evaluates C71_delete C71_update C71_select
Class of expressions: SpecProgramQ.v. Not(...) as operand of & or |, or beside another argument, is refused by the library (C71_not_operand) and excluded; so are Q() and Not() without conditions. All calls are made under the backend of the text, because & , | and Not objects are compared by their text. Pairs as in C67.

C72 proved
C72_order C72_incomparable C72_queries_refuted
The set of objects is compared_by_text in SpecOrder.v; before is the order by code points. Objects of foreign classes are excluded in C72_incomparable, since they may define their own operators. C72_queries_refuted is the sentence about queries.

C73 proved
C73_dict_order C73_dict_reordered C73_mixed_refused
Two keys with the same text (Python then compares the values) and keys of other types are not decided by the model.

C74 proved
C74_join
Class of calls: SpecJoin.join_call. Tables under distinct names only: joins of one table under one name can be merged (C45_joins_refuted). full_join only while the PostgreSQL backend is set, otherwise it is refused. Q objects and SQL objects as table names or conditions are outside the class. How a column name is resolved among the tables is a parameter of the statement.

C75 proved
C75_upsert
MySQL and SQLite, with the same backend at the call of on_duplicate_key_update and for the text. Under the default backend the call is ignored and under PostgreSQL the text lacks SET (C40), so both are outside. Values of one column that come back after another value are excluded, as in C33. The text is read by SpecNested.v.

C76 proved
C76_group
Class of calls: SpecGroup.group_call. Names contain no quote character and no parenthesis (C76_text_clash shows why: a column given as the string COUNT(*) equals Count('*')), group_by directions are ascending (GROUP BY has no other in two of the three dialects), no alias is the name of a group_by column. Concat, GroupConcat, Q objects and SQL objects as conditions are outside the class. Whether HAVING may use aliases is a parameter.

C77 proved
C77_unions C77_meant
Class of operands: SpecUnion.operand_ok (named columns, one table, no star, no order, limit or for update: C63 shows that those are not bracketed). Which expressions are read as meant is C42_faithful_partial; C77_misread is one that is not.

C78 proved
C78_only_causes C78_causes_raise C78_kinds C78_programs_render
The causes are SpecFails.stops, built from lists of the printed parts of each object. Exactness has one gap, kept visible as Possible and Certain: comparing joins prints some of their objects, and a join equal to an earlier one is not printed. EUnmodelled stands for str() of a foreign value and for insert columns given as SQL objects.

C79 proved
C79_prints C79_compares C79_statements C79_exceptions
The objects are SpecClient.client, an inductive definition over the model's constructors of all functions of sqlpuzzle/__init__.py. Hypothesis: Python's str() of foreign values does not raise. Queries other than SELECT as arguments of others, SQL objects as dictionary keys (C73), empty lists (C78) and objects changed after they were passed on are outside.

C80 proved
C80_select C80_delete C80_update
Class of programs: SpecSub.sel_sensible and where_sensible. Names do not contain the quote character, column names of a select are distinct and without brackets (C76), names in R have at most three parts, SET stores data; all calls under one backend. Joins, groups, orders and limits inside the nested queries are outside (C60 reads their text).

C81 proved
C81_clauses C81_select C81_update C81_delete C81_insert
Hypotheses as in C79_exceptions: arguments in SpecClient.client, calls regular (C44 lists the others, which raise TypeError, AttributeError or Exception), str() of foreign values does not raise. SpecHandlers.documented follows the documentation strings.

C82 proved
C82_raises C82_tells
As a consequence an update or delete without condition cannot be shown in a debugger: C82_example. SpecHandlers.one_class says when two objects are of one class.

C83 proved
C83_call C83_new C83_chain C83_chain_more
The methods are modelled a second time on heap objects (HeapBuild.v) and proved against the model on values (Queries.v). SpecShare.reached gives the programs. Excluded by hypotheses: a query inside its own arguments or inside itself, generators in arguments, and a one-entry dictionary given to join that is inside the query or inside itself. Chains exclude one-entry dictionaries given to join. Printing (the merging of the joins of one table of one query at a time, HeapShow.v) is among the steps and among the calls, so C83, C84, C86 and C87 hold of programs that print too.

C84 proved
C84_only_the_query
No hypothesis on sharing: generators and loops are allowed. C84_shared shows that a query that contains the changed one does change.

C85 partial
C85_operands C85_conditions C85_unions_of_selects_refuted
False in its last sentence: a select accepts any SQL object after & and |, also conditions and DELETE queries (witness). The rest is proved exactly. The text of combinations is C16 and C60.

C86 proved
C86_schedule C86_any_order C86_no_cycles
Calls are atomic (Python threads inside one call are not modelled). separate and quiet (SpecSchedule.v) say what may not be shared: a query that is called, a generator, a one-entry dictionary given to join. C86_inside shows the hypothesis is needed.

C87 proved
C87_copy C87_branch C87_original
copy() is also a step of the programs of C83, C84 and C86 (SpecShare.reached). well_formed (SpecHeap.v) is what copy.deepcopy needs of the heap: method objects as Python makes them, no tuple or set inside itself.

C88 proved
C88_select C88_select_from C88_delete C88_delete_from C88_update C88_insert
Dotted and quoted names are C06/C47 and the C60 reading; other values and clauses are C57, C58 and C67 to C70. The text of the integer is C11.

C89 partial
C89_same_text_partial C89_elsewhere C89_no_cycles C89_later_calls_refuted
str() is modelled on the heap as any sequence of merging the joins of one table of one query of the program. The text theorem needs plainly_joined (SpecEffects.v): without it the statement is false (C35_refuted). The last sentence is false: printing a query merges the joins of queries inside it, and a later on() then means something else (C89_later_calls_refuted). The texts returned during printing are those of Render.v, not computed on the heap.

C90 proved
C90_delete_join
The server's meaning of DELETE a, b FROM ... JOIN ... is SpecMulti.v: rows are told apart by position. Only statements that name the tables to delete from are executed; the text without them is not accepted by a server (C90_no_target). Values and conditions are those of C67 and C74.

C91 proved
C91_update_join
The server's meaning of UPDATE ... JOIN ... SET is SpecMulti.v; the table of a column is told by the server (own). As in C68 no value of a column comes back after another one, here for columns as the server understands them.

C92 proved
C92_distinct
The server's meaning of DISTINCT is SpecDistinct.v; the other options are taken as hints, and the parser accepts them in every dialect. Distinct rows are sorted only by columns they show, as standard SQL requires.

C93 proved
C93_select C93_delete C93_update
The conditions are those of C71 (SpecProgramQ.v), with the values of columns found in a combination of rows. Calls of where are made under the backend the text is made for, because objects are compared by their texts under the backend of the call.

C94 proved
C94_groups
The server's meaning of groups with options is SpecGroupAll.v. Conditions given to having are pairs as in C76. Calls of where are made under the backend the text is made for, as in C93.

C95 proved
C95_evaluates C95_having
The meaning of conditions on groups is SpecHaving.v; the server's meaning of groups is SpecGroupAll.v. Calls of where and having are made under the backend the text is made for.

C96 proved
C96_number
Which rows a program with such numbers touches is C67-C70 and the theorems after them, whose data now include every finite float and Decimal that is not an integer. Integral floats are left out of those programs: 2 == 2.0 in Python, so of where(a=2).where(a=2.0) only the first is written.

C97 proved
C97_pattern C97_alternatives C97_star C97_call_raises C97_options
Every part of the four statements, and the select options, where the word is looked for in upper case. Character classes in square brackets other than the one has() itself uses, counted repetitions, (?...) and backslashes before letters other than w and W are not modelled. The error of re is EException in the model, as re.error is a subclass of Exception.

C98 proved
C98_unions C98_meant C98_programs
Class of operands: SpecUnions.plain_operand, within the selects of C59; in C98_programs the programs of C93, whose calls say which rows each operand asks for. Grouped operands are in C99; C63 shows that an order or limit of an operand would not be bracketed.

C99 proved
C99_unions
Nothing is assumed about the server's answers to one SELECT, which may be several. Class of operands: SpecUnionAny.any_operand, within the selects of C59, GROUP BY and HAVING included; C94 and C95 are about their answers. C98 is the case in which the answers to the operands are settled.

C100 proved
C100_aggregates C100_refused C100_name C100_names C100_concat C100_convert C100_exists C100_shortcuts C100_texts C100_values C100_not C100_starts C100_starts_one C100_statements C100_prints
Entries.v models every def and shortcut of __init__.py except configure, with Python's binding of positional and keyword arguments. NoDup in C100_refused: Python has no repeated keywords. The texts of arbitrary arguments are C50 (aggregate_text, SpecFunctions.v), the statements started C88. C100_prints connects the functions with the objects of C79.
