# Formal model of python-sqlpuzzle: design

The subject is `/repo/sqlpuzzle` (a Python library that builds SQL text). Nothing is
executed: the model was written by reading the source. All modelling is in Coq 8.16.1,
standard library only, under `rocq/theories` (logical name `Verif`).

## Shape of the model

- Text is `list N` (Unicode code points). `strip` uses CPython's exact whitespace set.
- A Python call returns `res A := Ok a | Err exn`; a method that mutates its object
  returns the new state together with an outcome, so that a raised exception keeps the
  partial update the code made before raising.
- `val` is one inductive type for every Python value that can reach the API: plain data
  (None, bool, int, float, Decimal, str, bytes, date, datetime, list, tuple, set,
  frozenset, range, generator, dict, an opaque other object) and every sqlpuzzle object
  (custom SQL, V, R, relations, conditions, Q objects and their combinations, Not, exists,
  functions, Select, Union, Insert, Update, Delete).
- Rendering is written with open recursion: `str_body r v` mirrors each `__str__`, calling
  `r` where the code calls `str()` on a sub-object; `text E v` ties the knot by iterating
  on the depth of `v`, and is proved to satisfy `text E v = str_body E (text E) v`.
- Python equality (`__eq__` of each class, reflected comparison, numeric cross-type
  equality, comparison by rendered text in `Object.__eq__`) is `pyeq`.
- Builder calls take a whole argument list and keyword list, as Python does.
- What the model does not decide is an explicit oracle in the environment `env`:
  `pystr` (Python's `str()` of non-sqlpuzzle values), the non-ASCII part of `upper`,
  `lower` and of the regex class `\w`. Theorems quantify over every such oracle.

## Plan per property

- **C01 A string value is one SQL string literal (backslash-escaping servers).** Model `_escape_value`/`_string`; independent lexer of SQL text (separate spec file); prove that lexing the rendered literal followed by anything ends exactly at its end and decodes to the input, by induction on the string.
- **C02 A string value is one SQL string literal (standard servers).** Same lexer with backslash escapes off; decoded value is characterised exactly, equality iff no backslash/newline.
- **C03 A string value never turns into SQL code.** Full statement expected to be false (a reference-shaped string containing doubled quotes escapes the quoting): `_refuted` witness, plus `_partial` for strings with no doubled quotes and for non-reference strings.
- **C04 Identifier quoting.** Model `re.split` and `reference`; spec: split at dots, drop empties, quote; lexer decodes the identifiers back. Names with a quote: `_refuted` witness.
- **C05 Quoting a reference is idempotent.** Corollary of the characterisation of `reference` plus its behaviour on already quoted paths.
- **C06 Which strings count as references.** Spec is an inductive grammar; the matcher in the model is proved equivalent to it.
- **C07 Integers are rendered exactly.** Spec: a decimal reader; round trip by induction over digits.
- **C08 Floats and decimals are rendered with five decimals, correctly rounded.** Spec over Q: |rendered - value| <= 5e-6, exactly five decimals.
- **C09 Bytes are rendered losslessly.** Spec: a hex reader; round trip by induction.
- **C10 Dates and datetimes are rendered as ISO literals.** Spec: reader of fixed-width ISO fields; round trip under calendar bounds.
- **C11 Lists are rendered element by element, empty lists are rejected.** Element-wise statement with the join spec; the empty case raises.
- **C12 IN with None means IN or IS NULL.** Three-valued semantics of IN / IS NULL / OR given separately; the rendered text is the print of the condition, and its 3VL truth is membership.
- **C13 NOT IN with None means NOT IN and IS NOT NULL.** Likewise for NOT IN.
- **C14 None becomes IS NULL, never = NULL.** Case analysis over all values on the condition constructor.
- **C15 Relations accept exactly their documented types.** Iff statement against a table written from the documentation.
- **C16 Boolean structure of conditions survives rendering.** Tokens of the text are parsed by an independent relational grammar with SQL precedence; every parse evaluates to the meaning of the tree, and a parse exists.
- **C17 WHERE conditions only accumulate.** Prefix invariant of every step, lifted to histories.
- **C18 No condition given by the user is lost.** Refuted for mixtures with keywords; partial for each pure style.
- **C19 Duplicate elimination only drops true duplicates.** Refuted (1 vs True on PostgreSQL); (a str equals an SQL object with that text); partial for conditions over str/int/None, and by text for SQL objects (SpecSame.v: every object compared by text is replaced by its text, which changes neither text nor equality).
- **C20 Argument parsing contract.** Functional specification of the parser, proved equal on all inputs.
- **C21 Too short items are rejected.** Refuted (one-element tuples are padded); partial for scalar items.
- **C22 Keyword and dict order is irrelevant.** Permutation invariance of the sorted keyword list.
- **C23 Column list: no duplicates, insertion order, * by default.** Refinement to `first occurrences` list; SpecFirst.v states it for all arguments, with Python's == deciding which items are distinct.
- **C24 ORDER BY / GROUP BY: last direction wins, first position kept.** Refinement to an association list with update in place; SpecFirst.v states it for all arguments.
- **C25 LIMIT/OFFSET state.** Refinement to a pair of last values over histories.
- **C26 SELECT options.** Refinement to `last call per group`; sortedness and permutation invariance.
- **C27 Switching an option off affects only that option.** Refuted (`distinct().all(False)`); exact effect after any calls: the options of the same group go (`C27_off_exactly`).
- **C28 DELETE without WHERE needs confirmation.** Invariant over histories of Delete.
- **C29 UPDATE without WHERE needs confirmation.** Invariant over histories of Update.
- **C30 The confirmation cannot be bypassed by a vacuous condition.** Refuted (`where(Q())`); exact: which argument lists add no condition, and which objects give a blank WHERE (`SpecVacuous.v`).
- **C31 Clause order and presence in SELECT.** Explicit concatenation, commutation of calls touching different clauses.
- **C32 Multi-row INSERT is rectangular.** Specification by rows as partial maps.
- **C33 UPDATE SET: the last assignment of a column wins.** Refuted (1,2,1 sequence); which value counts exactly, for all data (SpecSet.v: Python equality of numbers across types), by induction over the history.
- **C34 Join minimisation.** Specification of grouping; completeness and soundness of merge.
- **C35 Rendering twice gives the same text.** Effects.v models what str() writes; idempotence of the join normalisation by induction; witness for nested tables. Renderings for different backends (SpecRerender.v): a rendering for one backend is one for any when joins are compared without texts; witness otherwise.
- **C36 Rendering is only an observation.** Refuted; simulation between the history with and without renderings for histories that do not attach ON conditions after one.
- **C37 Arguments are not modified.** Refuted for join(dict); the other calls do not take mutable arguments apart.
- **C38 Joins need a table and ON needs a join.** Case analysis of the state machine.
- **C39 ON condition equality.** Algebra of mirrored comparisons.
- **C40 Backend capability checks.** Case analysis over backends; silent no-op on plain SQL is a refutation.
- **C41 configure().** State machine over all strings.
- **C42 UNION structure.** Grammar of unions; left-nested correct, right-nested refuted.
- **C43 Failed calls leave the query unchanged.** Refuted in general; partial: a failing call with one item changes nothing, one with several has the effect of the items before the failing one (Q objects, on_duplicate_key_update and limit included).
- **C44 Invalid arguments raise the library's exceptions.** Refuted (order_by(('a', 1))); partial: all other calls of programs whose SQL objects print (comparing C, V, functions prints them), and for programs with any objects each exception is traced to its cause (SpecRaise.v).
- **C45 Whole-query injection safety.** Compositional lexing of every rendered text by induction on query depth.
  The text of a query and the text of the query with all string values replaced by a question mark are shown to be
  read as the same tokens but for the contents of the literals, and those contents are listed by a specification.
- **C46 copy() is independent.** Heap of Python objects (Heap.v): deepcopy with its memo, cycles through bound methods, a reader of queries out of objects. The copy is isomorphic (memo invariant by induction on the recursion), and separation of the two object sets is an invariant of arbitrary interleaved programs.
- **C47 has().** Word search specification. The word is a regular expression in the code: Pattern.v reads the whole expression has() makes as CPython's sre_parse does, and matches it. C47 is about words of characters, dots and escaped characters, C97 about the other words.
- **C48 Backend is applied at rendering.** Independence of the builder from the backend.
- **C49 INTO OUTFILE.** State machine.
- **C50 Aggregate functions.** Rendering equations.
- **C51 Equality of queries.** Reflexivity; equal-but-different rendering as refutation. Equal queries with SQL objects have the same text unless a listed confusion can occur (Prop_Same.v).
- **C52 Text of UPDATE. C53 Text of DELETE. C54 Text of INSERT and REPLACE.** Relational description of the whole text, for every reachable state.
- **C55 A server understands a condition as built.** SpecSql.v is a tokenizer, recursive-descent parser and three-valued evaluator of a SQL fragment that does not mention the library. Every rendered piece is shown to be read as a known list of lexemes (compositional, on top of the lexing lemmas of C45), every list of lexemes to be parsed as a known tree whatever admissible text follows, and the tree to have the truth value of the condition object, by induction on the object.
- **C56 DELETE, C57 UPDATE, C58 INSERT on a database.** The same reader for whole statements, and an execution function on tables; the effect is compared row by row and cell by cell with what the object asks for.
- **C59 SELECT as read.** The same reader; the statement read is related clause by clause to the query object.
- **C60 Nested queries, C61 statements with SQL objects as values.** SpecNested.v is a larger reader in which expressions and queries contain each other; its recursion is bounded by the number of lexemes, and the proofs show that this bound always suffices. SpecSays.v relates objects to what they ask for. Induction on the depth of the object; every parser lemma is stated for all sufficiently large bounds.
- **C62 One text, one meaning.** Corollary of C61: the reader is a function.
- **C63 Union operands, C64 INTO OUTFILE options.** Refuted by computed witnesses; exactly which unions and options are accepted,
  and how they are read, by the lemmas of C60 with one more for a query followed by a word it cannot continue with.
- **C65 Accepted arguments.** For each call a predicate on the items (SpecAccept.v) written with the type
  names of the documentation; case analysis over the values, induction over the loop. The reading of the
  items from the arguments is SpecArgs.v (C20).
- **C66 Order.** Induction over the loop: the new list is the old one followed by parts of a subsequence of
  the items.
- **C67-C70 Whole programs.** SpecProgram.v reads a sequence of builder calls directly as conditions,
  values, columns and directions; a history induction in PfProgram.v carries the meaning of the WHERE list
  (`selected` = `matches`) and of the value lists (last value per column) through reading, de-duplication and
  backend switches, and C56-C59 take it through the text to the rows.
- **C71 Whole programs with Q objects.** SpecProgramQ.v gives the syntax of the expressions a user writes
  with Q, Not, & and |, and their three-valued meaning. Proved by induction on the expression: the object built has
  the meaning of the expression, in spite of de-duplication inside Q (equal objects have equal meaning, for
  objects compared by text because the server's reading of a text is a function). The invariants over call
  sequences are those of C67-C70, proved once for any reading of where's arguments (PfProgram.v, Section Generic).
- **C72 Order of SQL objects.** Order.v models `Object.__lt__`, what functools.total_ordering derives from it
  and Python's rule of reflected operators. SpecOrder.v says what the text of an operand is; the theorem gives
  all five operators at once. The failure for queries is a computed witness.
- **C73 Dictionaries with SQL objects as keys.** A call with a dictionary equals the call with the tuples of its
  entries sorted by text (SpecOrder.in_text_order, a relation); permuted dictionaries give equal calls.
- **C74 Join programs.** As C70 with several tables: the meaning of JOIN, LEFT, RIGHT and FULL JOIN on lists of rows is
  SpecJoin.combine; the invariant says that the tables of the query are the ones asked for (table_state) and that the
  conditions kept have the truth of the pairs given, for every resolution of columns.
- **C75 Upserts.** SpecUpsert.insert_all: rows against unique keys, for INSERT, INSERT IGNORE, REPLACE and ON DUPLICATE
  KEY UPDATE. The query after the calls is shown to be a statement of SpecSays.v (C61), whose literals give the rows.
- **C76 Groups.** SpecGroup.group_answers: groups of the rows of SpecJoin.v, HAVING, aggregates as a function of the rows
  of a group. The invariant of C74 gets the parts GROUP BY and HAVING; equality of columns compares texts, and on the names
  of the class two items have one text only if they are the same item (item_eq).
- **C77 Rows of unions.** SpecUnion.union_answers: a chain of SELECTs read from left to right over bags of rows;
  each operand through C71, the chain by induction on its length, the Python expression through C42.
- **C78 Why rendering raises.** SpecFails.stops: an inductive relation over the printed parts of every object. Only causes: induction
  on the depth, clause by clause; causes raise: induction on the relation. Programs: the arguments' class (sound) is carried through
  every builder (the invariants of C44, generic in the class).
- **C79 Objects of the API.** SpecClient.client: the values reachable by the functions of `sqlpuzzle/__init__.py`. Induction over it shows
  that every one is in the class of C78, so that C44, C78 and the comparisons apply without hypotheses on the arguments' texts.
- **C80 Queries in conditions.** SpecNestRows.v gives the statements of SpecNested.v a meaning on rows: scopes for correlated names, scalar queries, IN and EXISTS, None when the server has to refuse.
  SpecSub.v: the programs a user writes (a mutual inductive type of conditions, values, queries and calls), how Python runs them in the model, and the rows asked for.
  PfSub.v relates the objects built to their reading (equal objects have the same reading, so merging loses nothing); PfSubRun.v is the induction over programs; the text is read by C60 and C61.
- **C81 Except clauses.** Names.v: the class hierarchy of exceptions.py, issubclass and try/except. The documented meaning of each clause is compared with the hierarchy by cases;
  the programs through C79, by induction over the calls up to the first exception.
- **C82 repr.** Names.v: class names and Object.__repr__. Injectivity: no class name contains a colon.
- **C83 Shared objects.** HeapBuild.v models the constructors and all builder methods a second time, on heap objects: attributes are written in place, arguments are kept by reference. SpecShare.v says which states programs reach. Proof: an ownership invariant (every object inside a query belongs to it and is referred to by that query only: PfOwn, PfSession), a description of the objects of each query class (PfLayout ... PfQueries), and a simulation of each method against Queries.v (PfMethods ... PfCalls, PfDictJoin, PfUse).
- **C87 Branches.** copy.deepcopy (Heap.v) as a step of a program: the copy of a query laid out as the invariant of PfOwn.v says is laid out so again (PfCopied.v), and what is reachable from the copy is new or an immutable tuple (PfBranch.v); then C86.
- **C88 Starting functions.** The text printed by select, select_from, delete, delete_from, update and insert_into for lists of names of any length (SpecEntry.v); proved by running parse_args, the list of columns or tables and the rendering by induction over the names (PfEntry.v).
- **C86 Schedules.** Calls on several queries of one heap; what a call makes reachable from its query is new or was inside an argument (PfTrace.v), so separation is kept; induction over the schedule.
- **C89 Printing in programs.** HeapShow.v models Table._minimize_joins on heap objects; printing is a sequence of such steps on queries of the program (SpecPrinting.v). One step replaces the printed query by its value with one table minimised (C83) and leaves all other objects alone, so by induction over the depth of reading every value read is related by SpecEffects.touch (PfPrinted.v, PfPrinting.v); then C35.
- **C90, C91 DELETE and UPDATE of several tables.** SpecMulti.v says what a server does: the combinations of rows are those of C74,
  with the position of each row in a column without a name, and a row is removed or changed if it is in a combination that satisfies WHERE.
  The invariants on the tables and conditions are those of C74 (PfJoin.v); SET is that of C68 with qualified columns. The statements are C56 and C57.
- **C92 distinct.** SpecDistinct.v: a server keeps one of the rows that show the same cells (two rows under a star are alike if their cells are,
  cell by cell). Option calls change nothing but the options (as in C27), so the invariant is that of C74 for the program without them.
- **C93 Conditions of Q, Not, & and | over several tables.** The calls of where set a part of the query no other call reads (PfObjects.v),
  so the other calls are those of C92, C90, C91, and the conditions are those of C71 with columns found in combinations of rows.
- **C94 Groups with options and conditions.** One proof about the text of a grouped query (PfGroup.v grouped_said) serves C76 and C94; the calls are split as in C92 and C93.
- **C95 Conditions in HAVING.** SpecHaving.v gives the expressions of C71 a meaning about groups; PfHaving.v follows PfProgramQ.v with columns and functions instead of columns; PfGroup.v grouped_kept is grouped_said with any condition on groups.
- **C96 Fractional numbers.** SpecSql.v reads decimal numbers (LNumber); SpecServer.v `five_decimals` says which literal a number stands for and Prop_Fraction.v relates it to the rational number; `datum` of SpecProgram.v, the data of all programs, includes every finite float and Decimal that is not an integer.
- **C97 has() with regular expressions.** SpecPattern.v: syntax (`written`) and meaning (`meets`) of expressions. PfPattern.v proves the matcher of Pattern.v sound and complete for a relational semantics, PfWords.v that reading a written expression gives its meaning, by induction on the expression, and that has() answers by it.
- **C98 Unions of selects over joined tables.** SpecUnions.v: the server of C77 with the answers of C92 to one SELECT, and `alone`, the answer to one operand executed on its own. PfUnions.v proves that which rows a SELECT without an order returns, and how often, is settled, with DISTINCT or without; that each operand's text is read before UNION as it is on its own (PfSqlStmt.select_told); and counts rows by induction on the chain of operators. C98_programs starts from the arguments of the calls, by C93.
- **C99 A union answers what its operands answer.** SpecUnionAny.v: a server of unions over any relation `rows` between SELECT statements and tables. PfUnionAny.v: by induction on the chain, an answer exists with given counts iff the operands have answers that give them; reading as in C98.
- **C100 The functions of the module make what they name.** Entries.v models the defs of `__init__.py` and Python's binding of arguments. SpecModule.v: a table of names, functions and DISTINCT, and which calls give an expression. Proved by cases on the table and on the argument lists from C50 and C88.
- **C85 Operands.** Expressions of & and | over arbitrary values (SpecOperands.pyexpr); induction over the expression.
- **C84 Isolation.** From the same invariant: a call writes to the objects of its query, to generators it iterates over and to the dictionary given to join.

## Files

- Model: `Base NumFmt Value Regex Backend Eq Render ParseArgs Build Pattern Queries History Effects Heap Order`.
- Specifications, not referring to the code's helpers: `Spec*.v`.
- Proofs: `*Facts.v`, `Pf*.v`. Statements: `Prop_*.v`, each theorem closed by `exact`, followed by `Print Assumptions` and examples that meet its hypotheses.
- `Conformance.v`: the texts asserted by the repository's own tests, recomputed by the model (a check of the reading of the source, not a proof).
- `tools/claims.txt` and `tools/manifest.py` generate `MANIFEST.json` and check that every theorem of `Prop_*.v` is claimed.

## Trusted base (kept current)

- Coq's kernel (8.16.1). `Print Assumptions` says "Closed under the global context" for every theorem of `Prop_*.v`. No axioms, plugins, functors or module types.
  A checker that loads all files may list the axioms of `Coq.ssr.ssrunder.Under_rel`: no file here imports it, it comes in with other parts of the standard library, and no theorem uses it.
- The reading of the Python source: every definition of the model cites file and lines.
- `EUnmodelled` marks the situations where the model refuses to say what Python does: column names of an insert that are SQL objects (hashed by identity), and comparisons whose result depends on object identity. Theorems never conclude anything from it.
- SpecLex.v, SpecSql.v and SpecNested.v are what "a server" means: quoting and escaping rules of MySQL, PostgreSQL, SQLite as documented, and a strict fragment of the grammar.
  SpecSql.execute, SpecSql.answers, SpecJoin.combine, SpecGroup.groups, SpecUnion.union_answers and SpecUpsert.insert_all are what its statements do to rows.

### Modelled

- `_common/sqlvalue.py`, `_common/argsparser.py`, `_common/customsql.py`, `_common/utils.py`, `_common/object.py` (`__eq__`, `copy`), `relations.py`;
  every class of `_queryparts`, `_queries` and `_backends`, with their calls, `__str__`, `__eq__`, `has` and `is_set`; `configure`.
- What `str()` writes into a query (Effects.v: joins are minimised in place) and what `join` writes into its argument.
- Objects on a heap and `copy.deepcopy` with its memo (Heap.v).
- Constructors and builder methods of the four queries on heap objects (HeapBuild.v), proved against the model on values.
- The functions of `sqlpuzzle/__init__.py` and the binding of their arguments (Entries.v).
- What str() writes: Table._minimize_joins on heap objects (HeapShow.v). It is also a step of the programs of C83, C84, C86 and C87.
- Comparison of SQL objects with <, >, <=, >= (Order.v): `Object.__lt__`, functools.total_ordering, reflected operators.

### Not modelled, or simplified

- `Object.__hash__` and messages of exceptions. `configure` is Backend.set_backend (C41); the other names of `sqlpuzzle/__init__.py` are in Entries.v.
- Query values are immutable in `Value.v`, so sharing of one Q object or one nested query between two queries is not seen there; C83 and C84 prove on heap objects that building is what it is on values. Of rendering, only the writes are modelled on heap objects (HeapShow.v); the order in which one str() visits tables and the text it returns are those of Effects.v and Render.v.
- Generators are consumed once by Python; in `Value.v` they are lists, so rendering a V(generator) twice is outside the theorems about repeated rendering.
- Python's `str()` of foreign objects, and letter case and word characters outside ASCII, are oracles.
- `re` is CPython's. Pattern.v models its language except `(?...)`, classes in square brackets other than `[^\w]`, counted and possessive repetitions, and backslashes before digits and before letters other than w and W; has() with those is EUnmodelled. `re.error` is EException.
- Recursion limits, memory, threads, and subclasses overriding methods are outside the model.
