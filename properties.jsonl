{"id": "C01", "title": "A string value is one SQL string literal (backslash-escaping servers)", "statement": "Whenever a str value that is not written as a quoted reference is rendered as a SQL value, the text is a single string literal for a server that honours backslash escapes (MySQL): whatever text follows, the lexer ends the literal exactly where the rendered text ends, and the literal denotes exactly the original Python string.", "quantifier": "every string (any length, any characters, including quotes, backslashes, newlines) that is not reference-shaped, every backend, every following text not starting with a quote", "why_tests_cant": "quote/backslash interaction depends on arbitrary runs of characters; tests sample four of them", "anchors": ["sqlpuzzle/_common/sqlvalue.py:_escape_value", "sqlpuzzle/_common/sqlvalue.py:SqlValue._string"]}
{"id": "C02", "title": "A string value is one SQL string literal (standard servers)", "statement": "For a server without backslash escapes (standard SQL, PostgreSQL, SQLite) a non-reference str value is also rendered as exactly one string literal, so it can never inject SQL. The literal denotes the original string exactly when the string has no backslash and no newline; with a backslash or a newline the stored value differs from the Python string.", "quantifier": "every non-reference-shaped string and every following text not starting with a quote", "why_tests_cant": "needs every string; the corruption is invisible in the rendered text alone", "anchors": ["sqlpuzzle/_common/sqlvalue.py:_escape_value", "sqlpuzzle/_common/sqlvalue.py:SqlValue._string"]}
{"id": "C03", "title": "A string value never turns into SQL code", "statement": "Whatever the content of a str value passed to where/set/values, the rendered value is either one string literal or a dotted path of quoted identifiers; no character of the value is interpreted by the server outside quotes.", "quantifier": "every string, including strings that look like quoted references", "why_tests_cant": "the reference heuristic is a regular expression over unbounded strings", "anchors": ["sqlpuzzle/_backends/sql.py:SqlBackend.is_reference", "sqlpuzzle/_backends/sql.py:SqlBackend.reference", "sqlpuzzle/_common/sqlvalue.py:SqlValue._string"]}
{"id": "C04", "title": "Identifier quoting", "statement": "A table, column or alias name without the backend's quote character is rendered as its non-empty dot-separated segments, in order, each a single quoted identifier denoting that segment, joined by dots, a bare * staying bare. Names with the quote character inside are not guaranteed to be safe.", "quantifier": "every name, every backend", "why_tests_cant": "unbounded names; number and position of dots and quotes is arbitrary", "anchors": ["sqlpuzzle/_backends/sql.py:SqlBackend.reference", "sqlpuzzle/_common/sqlvalue.py:SqlReference"]}
{"id": "C05", "title": "Quoting a reference is idempotent", "statement": "Rendering an already rendered reference again gives the same text, so wrapping in R(...) twice or passing pre-quoted names is harmless for names without embedded quote characters.", "quantifier": "every name without quote characters, every backend", "why_tests_cant": "unbounded names", "anchors": ["sqlpuzzle/_backends/sql.py:SqlBackend.reference"]}
{"id": "C06", "title": "Which strings count as references", "statement": "A str value is treated as a column reference instead of a value exactly when, after stripping surrounding whitespace, it is one quoted identifier followed by at most two further dot-separated identifiers (quoted, or unquoted without quote, dot and space). In particular a string without the quote character is always a value.", "quantifier": "every string, every backend", "why_tests_cant": "language of a regular expression over all strings", "anchors": ["sqlpuzzle/_backends/sql.py:SqlBackend.is_reference"]}
{"id": "C07", "title": "Integers and booleans are rendered exactly", "statement": "Every int is rendered as its canonical decimal numeral, which reads back as the same integer; a bool is rendered as the boolean of the configured backend (true/false on PostgreSQL, 1/0 elsewhere).", "quantifier": "every integer of any size", "why_tests_cant": "unbounded integers", "anchors": ["sqlpuzzle/_common/sqlvalue.py:SqlValue._integer", "sqlpuzzle/_common/sqlvalue.py:SqlValue._get_convert_method"]}
{"id": "C08", "title": "Floats and decimals are rendered with five decimals, correctly rounded", "statement": "Every finite float or Decimal is rendered as a sign, an integer part and exactly five decimals, and the rendered number is within 0.000005 of the value. (Different values can therefore be rendered the same.)", "quantifier": "every finite number", "why_tests_cant": "all magnitudes and rounding ties", "anchors": ["sqlpuzzle/_common/sqlvalue.py:SqlValue._float"]}
{"id": "C09", "title": "Bytes are rendered losslessly", "statement": "Every bytes value is rendered as a hexadecimal literal from which exactly the original bytes are decoded, on every backend.", "quantifier": "every byte string, every backend", "why_tests_cant": "unbounded byte strings", "anchors": ["sqlpuzzle/_backends/sql.py:SqlBackend.bytes", "sqlpuzzle/_backends/postgresql.py:PostgreSqlBackend.bytes"]}
{"id": "C10", "title": "Dates and datetimes are rendered as ISO literals", "statement": "Every date/datetime value is rendered as one quoted ISO-8601 literal of fixed width fields that reads back as the same date/time.", "quantifier": "every valid naive date and datetime", "why_tests_cant": "all calendar values", "anchors": ["sqlpuzzle/_common/sqlvalue.py:SqlValue._date", "sqlpuzzle/_common/sqlvalue.py:SqlValue._datetime"]}
{"id": "C11", "title": "Lists are rendered element by element, empty lists are rejected", "statement": "A list/tuple/set/frozenset/range value is rendered as ( e1, ..., en ) with each element rendered as its own SQL value, in iteration order; an empty one raises InvalidArgumentException and never renders as ().", "quantifier": "every sequence of every length and nesting", "why_tests_cant": "unbounded length and nesting", "anchors": ["sqlpuzzle/_common/sqlvalue.py:SqlValue._list"]}
{"id": "C12", "title": "IN with None means IN or IS NULL", "statement": "where(col, IN(list)) selects, under SQL three-valued logic, exactly the rows whose value is a member of the list, where None in the list matches NULL; this holds wherever None occurs in the list and also if the list contains only None.", "quantifier": "every list, every row value including NULL", "why_tests_cant": "any list length and position of None; three-valued logic", "anchors": ["sqlpuzzle/relations.py:IN._format_condition"]}
{"id": "C13", "title": "NOT IN with None means NOT IN and IS NOT NULL", "statement": "where(col, NOT_IN(list)) selects exactly the non-NULL rows whose value is not in the list; None in the list never makes the condition unknown for all rows.", "quantifier": "every list, every row value including NULL", "why_tests_cant": "any list length and position of None; three-valued logic", "anchors": ["sqlpuzzle/relations.py:NOT_IN._format_condition"]}
{"id": "C14", "title": "None becomes IS NULL, never = NULL", "statement": "Every condition built from a plain Python value picks the documented relation: None gives IS NULL, sequences give IN, everything else gives =; no condition built from None or IN is rendered with = NULL.", "quantifier": "every column, every plain value", "why_tests_cant": "all values of all types", "anchors": ["sqlpuzzle/_queryparts/conditions.py:Condition.value", "sqlpuzzle/relations.py"]}
{"id": "C15", "title": "Relations accept exactly their documented types", "statement": "Constructing a relation succeeds exactly for SQL objects and for values of the types documented for it (for IN and NOT_IN: any iterable, including str, bytes and dict), bool being an int only where bool is listed; otherwise InvalidArgumentException is raised.", "quantifier": "every relation and every value", "why_tests_cant": "13 relations x all values", "anchors": ["sqlpuzzle/relations.py:_RelationValue._check_value_type", "sqlpuzzle/relations.py:IN.__init__"]}
{"id": "C16", "title": "Boolean structure of conditions survives rendering", "statement": "For any nesting of Q objects combined with & and |, Not and several conditions per Q, the rendered text, parsed with SQL precedence (NOT over AND over OR), has the truth value the Python expression has, for every valuation of the atomic conditions.", "quantifier": "every condition tree of any depth without custom SQL and without empty Q, every valuation", "why_tests_cant": "unbounded nesting; precedence errors need specific shapes", "anchors": ["sqlpuzzle/_queryparts/conditions.py:ConditionsOfConditions", "sqlpuzzle/_queryparts/conditions.py:Conditions", "sqlpuzzle/_queryparts/conditions.py:Not"]}
{"id": "C17", "title": "WHERE conditions only accumulate", "statement": "In every sequence of where() calls, successful or failing, the conditions present before a call are still present afterwards, in the same order and unchanged; new ones are added only at the end.", "quantifier": "every history of where/having/on calls with arbitrary arguments", "why_tests_cant": "all call histories", "anchors": ["sqlpuzzle/_queryparts/conditions.py:Conditions.where", "sqlpuzzle/_queryparts/queryparts.py:QueryParts.append_unique_part"]}
{"id": "C18", "title": "No condition given by the user is lost", "statement": "Every condition passed to where() (positional pair, list of pairs, dict, keywords, Q objects, or a mixture) is represented in the rendered WHERE clause.", "quantifier": "every argument shape", "why_tests_cant": "combinations of argument styles are unbounded; the loss is silent", "anchors": ["sqlpuzzle/_common/argsparser.py:ParserInput.dictionary_or_kwds", "sqlpuzzle/_queryparts/conditions.py:Conditions.where"]}
{"id": "C19", "title": "Duplicate elimination only drops true duplicates", "statement": "A condition is dropped as a duplicate only if the clause already contains a condition that is rendered as the same text.", "quantifier": "every clause and every new condition", "why_tests_cant": "relies on Python equality between values of different types", "anchors": ["sqlpuzzle/_queryparts/conditions.py:Condition.__eq__", "sqlpuzzle/_common/object.py:Object.__eq__"]}
{"id": "C20", "title": "Argument parsing contract", "statement": "For every option setting used by the library, arguments are turned into tuples of exactly max_items entries: positional arguments in order, then dict/keyword items sorted by key; shorter items are padded with None; too long items and scalars where pairs are required raise InvalidArgumentException.", "quantifier": "every argument list and keyword set", "why_tests_cant": "unbounded argument lists", "anchors": ["sqlpuzzle/_common/argsparser.py:parse_args"]}
{"id": "C21", "title": "Too short items are rejected", "statement": "When at least two items are required (where, set, values) an item with fewer is rejected with InvalidArgumentException, not silently completed with None.", "quantifier": "every argument list", "why_tests_cant": "every shape of nested list/tuple", "anchors": ["sqlpuzzle/_common/argsparser.py:Parser._parse_list"]}
{"id": "C22", "title": "Keyword and dict order is irrelevant", "statement": "Passing the same keywords or the same str-keyed dict in any order builds the same query.", "quantifier": "every keyword set and every permutation of it", "why_tests_cant": "n! orders; dict order is a runtime matter", "anchors": ["sqlpuzzle/_common/argsparser.py:Parser._parse_dictionary"]}
{"id": "C23", "title": "Column list: no duplicates, insertion order, * by default", "statement": "After any sequence of columns() calls the SELECT list contains the distinct requested (column, alias) pairs in order of first request, and * iff none was requested.", "quantifier": "every history of columns() calls", "why_tests_cant": "all histories", "anchors": ["sqlpuzzle/_queryparts/columns.py:Columns.columns"]}
{"id": "C24", "title": "ORDER BY / GROUP BY: last direction wins, first position kept", "statement": "After any sequence of order_by()/group_by() calls every column occurs once, at the position of its first mention, with the direction of its last mention (None meaning ascending, case-insensitive).", "quantifier": "every history of order_by/group_by calls", "why_tests_cant": "all histories", "anchors": ["sqlpuzzle/_queryparts/order.py:Orders.order", "sqlpuzzle/_queryparts/order.py:Order.sort"]}
{"id": "C25", "title": "LIMIT/OFFSET state", "statement": "After any sequence of limit()/offset() calls the rendered clause shows exactly the last limit, and the last offset set since the last limit(None); offset 0 and None mean no OFFSET; a rejected argument changes nothing.", "quantifier": "every history of limit/offset calls", "why_tests_cant": "all histories", "anchors": ["sqlpuzzle/_queryparts/limit.py:Limit"]}
{"id": "C26", "title": "SELECT options", "statement": "After any sequence of option calls each option group (cache, duplicates, single flags) shows what its last call asked for; exclusive options never appear together; the rendered order is alphabetical and independent of the call order.", "quantifier": "every history of option calls", "why_tests_cant": "all histories and interleavings", "anchors": ["sqlpuzzle/_queries/selectoptions.py:SelectOptions", "sqlpuzzle/_queries/options.py:Options"]}
{"id": "C27", "title": "Switching an option off affects only that option", "statement": "Calling an option method with allow=False removes that option and no other.", "quantifier": "every option state and every option", "why_tests_cant": "combination of options", "anchors": ["sqlpuzzle/_queries/selectoptions.py:SelectOptions"]}
{"id": "C28", "title": "DELETE without WHERE needs confirmation", "statement": "For every history of calls on a Delete query, rendering succeeds only if a WHERE condition was added or the last of allow_delete_all/forbid_delete_all was allow; otherwise ConfirmDeleteAllException is raised. If conditions are present the text has a WHERE clause.", "quantifier": "every history of calls", "why_tests_cant": "all histories", "anchors": ["sqlpuzzle/_queries/delete.py:Delete.__str__"]}
{"id": "C29", "title": "UPDATE without WHERE needs confirmation", "statement": "For every history of calls on an Update query, rendering succeeds only if a WHERE condition was added or the last of allow_update_all/forbid_update_all was allow; otherwise ConfirmUpdateAllException is raised. If conditions are present the text has a WHERE clause.", "quantifier": "every history of calls", "why_tests_cant": "all histories", "anchors": ["sqlpuzzle/_queries/update.py:Update.__str__"]}
{"id": "C30", "title": "The confirmation cannot be bypassed by a vacuous condition", "statement": "A where() call that contributes no actual condition (no arguments, empty dict, empty list, empty Q, empty custom SQL) does not count as a WHERE condition.", "quantifier": "every vacuous argument", "why_tests_cant": "all argument shapes", "anchors": ["sqlpuzzle/_queryparts/queryparts.py:QueryParts.is_set", "sqlpuzzle/_queryparts/queryparts.py:append_custom_sql_decorator"]}
{"id": "C31", "title": "Clause order and presence in SELECT", "statement": "A rendered SELECT is the keyword followed by exactly the set clauses in SQL order: options, columns, FROM, WHERE, GROUP BY, HAVING, ORDER BY, LIMIT, INTO OUTFILE, FOR UPDATE, separated by single spaces, independent of the order of the builder calls.", "quantifier": "every SELECT state and every call order", "why_tests_cant": "all histories", "anchors": ["sqlpuzzle/_queries/select.py:Select", "sqlpuzzle/_queries/query.py:Query.__str__"]}
{"id": "C32", "title": "Multi-row INSERT is rectangular", "statement": "A rendered INSERT lists every column used in any row once, sorted; every row has exactly one value per column, in that order: the last value given for the column in that row, or NULL.", "quantifier": "every number of rows with arbitrary, different column sets", "why_tests_cant": "unbounded rows/columns", "anchors": ["sqlpuzzle/_queryparts/values.py:MultipleValues", "sqlpuzzle/_queryparts/values.py:Values.values"]}
{"id": "C33", "title": "UPDATE SET: the last assignment of a column wins", "statement": "After any sequence of set() calls on an Update, executing the SET list left to right leaves every column with the value of the last set() call for it.", "quantifier": "every history of set() calls", "why_tests_cant": "all histories; the defect needs a value to be re-set to an earlier value", "anchors": ["sqlpuzzle/_queryparts/values.py:Values.set"]}
{"id": "C34", "title": "Join minimisation", "statement": "Rendering merges joins of the same table with the same condition: no join (table, condition) disappears, a group containing an inner join becomes one inner join, a group of equal types becomes one join, other groups are kept entirely, and groups are listed in order of first occurrence.", "quantifier": "every list of joins", "why_tests_cant": "all join lists and types", "anchors": ["sqlpuzzle/_queryparts/tables.py:Table._minimize_joins"]}
{"id": "C35", "title": "Rendering twice gives the same text", "statement": "str(query) can be repeated: the second rendering (after the internal effects of the first) succeeds and gives the same text.", "quantifier": "every query", "why_tests_cant": "rendering mutates the join lists", "anchors": ["sqlpuzzle/_queryparts/tables.py:Table.__str__", "sqlpuzzle/_queryparts/tables.py:Table._minimize_joins"]}
{"id": "C36", "title": "Rendering is only an observation", "statement": "Calling str()/repr() on a query in the middle of building it does not change what later calls produce.", "quantifier": "every history with renderings inserted anywhere", "why_tests_cant": "all interleavings of rendering and building", "anchors": ["sqlpuzzle/_queryparts/tables.py:Table.__str__"]}
{"id": "C37", "title": "Arguments are not modified", "statement": "Builder calls leave the caller's argument objects (lists, dicts) unchanged.", "quantifier": "every call", "why_tests_cant": "aliasing", "anchors": ["sqlpuzzle/_queryparts/tables.py:Table.join"]}
{"id": "C38", "title": "Joins need a table and ON needs a join", "statement": "join()/on() before a table, and on() before a join, raise InvalidQueryException and change nothing; otherwise the join is attached to the last table and the condition to the last join.", "quantifier": "every state", "why_tests_cant": "all histories", "anchors": ["sqlpuzzle/_queryparts/tables.py:Tables.last_table", "sqlpuzzle/_queryparts/tables.py:Table.on"]}
{"id": "C39", "title": "ON condition equality", "statement": "Two ON conditions between columns are considered equal exactly if they are the same or mirror images (a < b and b > a); this relation is reflexive, symmetric and transitive, so grouping of joins does not depend on the order of comparison.", "quantifier": "every pair/triple of column conditions", "why_tests_cant": "all pairs", "anchors": ["sqlpuzzle/_queryparts/tables.py:OnCondition.__eq__"]}
{"id": "C40", "title": "Backend capability checks", "statement": "full_join raises InvalidQueryException exactly on backends without FULL JOIN support; on_duplicate_key_update produces the construct of the configured backend and is never ignored silently.", "quantifier": "every backend, every query", "why_tests_cant": "4 backends x all queries", "anchors": ["sqlpuzzle/_queryparts/tables.py:Tables.full_join", "sqlpuzzle/_queries/insert.py:Insert.on_duplicate_key_update"]}
{"id": "C41", "title": "configure()", "statement": "configure accepts exactly sql, mysql, postgresql, sqlite case-insensitively; after any sequence of configure calls the backend is the one of the last accepted call; a rejected call raises and changes nothing.", "quantifier": "every history of configure calls with arbitrary strings", "why_tests_cant": "all strings and histories", "anchors": ["sqlpuzzle/_backends/__init__.py:set_backend"]}
{"id": "C42", "title": "UNION structure", "statement": "The rendered union, read with SQL's left associativity, denotes the combination the Python expression denotes.", "quantifier": "every expression of selects combined with & and |", "why_tests_cant": "all nestings", "anchors": ["sqlpuzzle/_queries/union.py:Union.__str__"]}
{"id": "C43", "title": "Failed calls leave the query unchanged", "statement": "If a builder call raises, the query is as before the call.", "quantifier": "every call with arbitrary arguments on every state", "why_tests_cant": "all failure points", "anchors": ["sqlpuzzle/_queryparts/conditions.py:Conditions.where", "sqlpuzzle/_queryparts/order.py:Orders.order", "sqlpuzzle/_queryparts/limit.py:Limit.limit"]}
{"id": "C44", "title": "Invalid arguments raise the library's exceptions", "statement": "Every builder call with an unacceptable argument raises a SqlPuzzleException subclass, never a bare Python error.", "quantifier": "every call with arbitrary arguments", "why_tests_cant": "all argument types", "anchors": ["sqlpuzzle/_common/utils.py:check_type_decorator", "sqlpuzzle/_queryparts/order.py:Order.sort"]}
{"id": "C45", "title": "Whole-query injection safety", "statement": "In a rendered query without custom SQL and with quote-free names, every user supplied string value is exactly the content of one string literal token, and everything outside string literals is independent of the values.", "quantifier": "every query of any size and nesting", "why_tests_cant": "compositional over unbounded queries", "anchors": ["sqlpuzzle/_queries/query.py:Query.__str__", "sqlpuzzle/_common/sqlvalue.py"]}
{"id": "C46", "title": "copy() is independent", "statement": "A copy renders the same as the original and no later operation on the original, on its subqueries or on condition objects it shares changes the copy, and vice versa.", "quantifier": "every object graph and every later history", "why_tests_cant": "all histories and sharing patterns", "anchors": ["sqlpuzzle/_common/object.py:Object.copy"]}
{"id": "C47", "title": "has()", "statement": "has(part) is true exactly if the part is set; has(part, word) exactly if the word occurs in the rendered part as a whole word.", "quantifier": "every query state and every word", "why_tests_cant": "all rendered texts", "anchors": ["sqlpuzzle/_queries/query.py:Query.has", "sqlpuzzle/_queryparts/queryparts.py:has", "sqlpuzzle/_queries/select.py:Select.has"]}
{"id": "C48", "title": "Backend is applied at rendering", "statement": "Which identifiers quotes and literals are used depends only on the backend configured at rendering time; building a SELECT with plain strings and numbers gives the same query object under every backend.", "quantifier": "every history (without full_join) and every pair of backends", "why_tests_cant": "all histories x backend switches", "anchors": ["sqlpuzzle/_backends/__init__.py:get_backend", "sqlpuzzle/_common/sqlvalue.py"]}
{"id": "C49", "title": "INTO OUTFILE", "statement": "The INTO OUTFILE clause is rendered iff a file was given, with exactly the options last set, in fixed order, each as a SQL value.", "quantifier": "every history of the four calls", "why_tests_cant": "all histories", "anchors": ["sqlpuzzle/_queryparts/intooutfile.py:IntoOutfile"]}
{"id": "C50", "title": "Aggregate functions", "statement": "AVG/COUNT/MAX/MIN/SUM/CONCAT/GROUP_CONCAT/CONVERT render their function name with the quoted argument list, DISTINCT exactly if last requested, COUNT without argument as COUNT(*).", "quantifier": "every argument and every history of distinct/order_by/separator calls", "why_tests_cant": "all arguments and histories", "anchors": ["sqlpuzzle/_queryparts/functions.py"]}
{"id": "C51", "title": "Equality of queries", "statement": "Query equality is reflexive on freshly built queries and equal queries are rendered the same.", "quantifier": "every pair of queries", "why_tests_cant": "all pairs", "anchors": ["sqlpuzzle/_queries/query.py:Query.__eq__", "sqlpuzzle/_common/object.py:Object.__eq__"]}
{"id": "C52", "title": "Text of UPDATE", "statement": "A rendered UPDATE is UPDATE [IGNORE] tables with their joins, SET with the assignments, then WHERE if there are conditions, single-spaced and trimmed; it has a text iff every part has one and either a condition was given or updating all rows was confirmed.", "quantifier": "every history of calls, including failing ones", "why_tests_cant": "all histories", "anchors": ["sqlpuzzle/_queries/update.py:Update"]}
{"id": "C53", "title": "Text of DELETE", "statement": "A rendered DELETE is DELETE [IGNORE] with the listed tables, FROM the tables with their joins, then WHERE if there are conditions, single-spaced and trimmed; it has a text iff every part has one and either a condition was given or deleting all rows was confirmed.", "quantifier": "every history of calls, including failing ones", "why_tests_cant": "all histories", "anchors": ["sqlpuzzle/_queries/delete.py:Delete"]}
{"id": "C54", "title": "Text of INSERT and REPLACE", "statement": "A rendered INSERT is INSERT or REPLACE [IGNORE] INTO the table, the column list and rows, and the backend's form of the update on a duplicate key if one was requested.", "quantifier": "every history of calls, including failing ones, and every backend", "why_tests_cant": "all histories", "anchors": ["sqlpuzzle/_queries/insert.py:Insert", "sqlpuzzle/_queryparts/onduplicatekeyupdate.py"]}
{"id": "C55", "title": "A server understands a condition as the caller built it", "statement": "Read back by a SQL tokenizer and parser and evaluated in SQL's three-valued logic, the text of a condition (comparisons, IN and NOT IN lists with or without None, Q objects, &, |, not) is true, false or unknown of exactly the rows for which the condition the caller built is, whatever strings, numbers, dates or bytes it contains.", "quantifier": "every condition tree of any depth over quote-free column names, aggregates and concat, with NULL, boolean, integer, string, date, datetime, bytes or column operands, every backend, every row and every comparison function of the server", "why_tests_cant": "all queries, all data, and the reading of the text by another program", "anchors": ["sqlpuzzle/_queryparts/conditions.py:Conditions", "sqlpuzzle/_queryparts/conditions.py:ConditionsOfConditions", "sqlpuzzle/_common/sqlvalue.py:SqlValue", "sqlpuzzle/relations.py"]}
{"id": "C56", "title": "DELETE removes exactly the rows asked for", "statement": "Executing the text of a delete removes from the named table exactly the rows its conditions are true of, in every database, keeps the others in order, and changes no other table. The text of a multi-table delete is read as the same targets, tables, joins and conditions.", "quantifier": "every delete over conditions of C55, every database content and backend", "why_tests_cant": "all queries, all data, and the reading of the text by another program", "anchors": ["sqlpuzzle/_queries/delete.py:Delete"]}
{"id": "C57", "title": "UPDATE changes exactly the cells asked for", "statement": "Executing the text of an update gives the assigned values to the assigned columns of exactly the rows its conditions are true of, and changes no other cell, row or table. The text of a multi-table update is read as the same tables, joins, assignments and conditions.", "quantifier": "every update over conditions of C55, every database content and backend", "why_tests_cant": "all queries, all data, and the reading of the text by another program", "anchors": ["sqlpuzzle/_queries/update.py:Update", "sqlpuzzle/_queryparts/values.py:Values"]}
{"id": "C58", "title": "INSERT adds exactly the rows given", "statement": "Executing the text of an insert appends one row for every values() call, in order, with the given value in every given column and NULL in the others, even if the calls name different columns in different orders, and changes no other row or table.", "quantifier": "every insert of any number of rows over string column names and the values of C55, every database content and backend", "why_tests_cant": "all queries, all data, and the reading of the text by another program", "anchors": ["sqlpuzzle/_queries/insert.py:Insert", "sqlpuzzle/_queryparts/values.py:MultipleValues"]}
{"id": "C59", "title": "A server reads a SELECT as it was built", "statement": "Read back by a SQL parser, the text of a select is a statement with exactly the options, columns with aliases, tables with aliases, joins with their kinds and conditions, WHERE, GROUP BY, HAVING, ORDER BY, LIMIT, OFFSET and FOR UPDATE that were asked for, each once and in order.", "quantifier": "every select without custom SQL, nested selects, INTO OUTFILE or two joins of one table under one alias, with conditions of C55, every backend", "why_tests_cant": "all queries, all data, and the reading of the text by another program", "anchors": ["sqlpuzzle/_queries/select.py:Select", "sqlpuzzle/_queries/query.py:Query"]}
{"id": "C60", "title": "Queries inside queries are read as they were built", "statement": "Read back by a SQL parser, the text of a select or union in which queries occur as columns, tables, joined tables, values, in IN, in EXISTS and as arguments of functions, to any depth, is exactly the query that was asked for: every inner query is where it was put, with all its clauses, and nothing of it leaks into the query around it.", "quantifier": "every select, union and condition without custom SQL, any nesting depth, all names without quote characters and all values including floats, decimals, C(), V(), aggregate functions, CONCAT, GROUP_CONCAT and CONVERT, every backend", "why_tests_cant": "unbounded nesting and all data, and the reading of the text by another program", "anchors": ["sqlpuzzle/_queries/select.py:Select", "sqlpuzzle/_queries/union.py:Union", "sqlpuzzle/_common/sqlvalue.py:SqlReference", "sqlpuzzle/_common/sqlvalue.py:SqlValue", "sqlpuzzle/_queryparts/tables.py:Tables", "sqlpuzzle/_queryparts/functions.py", "sqlpuzzle/_queryparts/where.py:Exists"]}
{"id": "C61", "title": "Statements with SQL objects as values are read as they were built", "statement": "Read back by a SQL parser, the text of a delete, update, insert or replace whose values are columns, functions or queries is exactly the statement asked for: the same tables and joins, every assignment to its column, every cell of an insert in its column with NULL where none was given, the assignments of ON DUPLICATE KEY UPDATE, and the same condition.", "quantifier": "every delete, update, insert and replace over the expressions and conditions of C60, every backend", "why_tests_cant": "unbounded nesting and all data, and the reading of the text by another program", "anchors": ["sqlpuzzle/_queries/delete.py:Delete", "sqlpuzzle/_queries/update.py:Update", "sqlpuzzle/_queries/insert.py:Insert", "sqlpuzzle/_queryparts/values.py"]}
{"id": "C62", "title": "One text, one meaning", "statement": "If two queries have the same text on a backend, they ask for the same statement; so a query log, a cache keyed by the text, or a comparison of texts never confuses two different requests.", "quantifier": "every pair of queries of C60 and C61, every backend", "why_tests_cant": "all pairs of queries", "anchors": ["sqlpuzzle/_queries/query.py:Query.__str__", "sqlpuzzle/_common/object.py:Object.__eq__"]}
{"id": "C63", "title": "Operands of a union keep their own clauses", "statement": "A select that is an operand of a union keeps its own ORDER BY, LIMIT, INTO OUTFILE and FOR UPDATE.", "quantifier": "every union", "why_tests_cant": "all combinations of clauses and operands, and the reading of the text by another program", "anchors": ["sqlpuzzle/_queries/union.py:Union.__str__"]}
{"id": "C64", "title": "INTO OUTFILE options form valid SQL", "statement": "Whatever options of INTO OUTFILE are set, in whatever order, the text is a statement the server accepts.", "quantifier": "every subset and order of the option calls", "why_tests_cant": "the reading of the text by another program", "anchors": ["sqlpuzzle/_queryparts/intooutfile.py:IntoOutfile.__str__"]}
{"id": "C65", "title": "Arguments are accepted exactly as documented", "statement": "A call of where, having, on, set, values, columns, from_, delete, order_by or group_by succeeds if every item has documented types (for example text or SQL object as column of a condition; text, number or SQL object as column of a select; ASC or DESC in any case as direction) and otherwise raises InvalidArgumentException, never coercing the argument.", "quantifier": "every query state, every argument list, every keyword list", "why_tests_cant": "all types and shapes of arguments in all positions", "anchors": ["sqlpuzzle/_common/utils.py:check_type_decorator", "sqlpuzzle/_common/argsparser.py:parse_args", "sqlpuzzle/_queryparts/conditions.py:Condition", "sqlpuzzle/_queryparts/values.py:Value", "sqlpuzzle/_queryparts/columns.py:Column", "sqlpuzzle/_queryparts/tables.py:Table", "sqlpuzzle/_queryparts/order.py:Order"]}
{"id": "C66", "title": "Parts appear in the order in which they were given", "statement": "A builder call never moves or removes what earlier calls put into a clause; what it adds follows at the end in the order of the arguments, also when it is custom SQL and also when the call fails half way.", "quantifier": "every query state and every argument list", "why_tests_cant": "all histories of calls and all mixtures of data and SQL objects", "anchors": ["sqlpuzzle/_queryparts/queryparts.py:append_custom_sql_decorator", "sqlpuzzle/_queryparts/queryparts.py:QueryParts.append_unique_part", "sqlpuzzle/_queryparts/order.py:Orders.order"]}
{"id": "C67", "title": "A delete program removes exactly the rows its conditions describe", "statement": "After delete_from(t) and any sequence of where(...) calls in any of their notations (pairs, keywords, lists, dicts; plain data, lists, relations), allow_delete_all, forbid_delete_all and ignore, every call succeeds, the query renders, and a server executing the text removes from t exactly the rows that satisfy all the (column, value) pairs given, keeps the others in order and touches no other table.", "quantifier": "every sequence of calls and backend switches, every table content, every comparison of the server", "why_tests_cant": "the composition of argument reading, de-duplication, rendering and the server's reading over all programs and data", "anchors": ["sqlpuzzle/_queries/delete.py:Delete", "sqlpuzzle/_queryparts/conditions.py:Conditions.where", "sqlpuzzle/_common/argsparser.py:parse_args", "sqlpuzzle/_backends/sql.py"]}
{"id": "C68", "title": "An update program changes exactly the rows and columns it names", "statement": "After update(t) and any sequence of set(...), where(...), allow_update_all, forbid_update_all and ignore calls, every call succeeds, the query renders, and a server executing the text stores in every row satisfying all pairs the last value given for each column, leaving other columns, rows and tables alone.", "quantifier": "every sequence of calls, every table content, every comparison of the server", "why_tests_cant": "the composition of argument reading, de-duplication, rendering and the server's reading over all programs and data", "anchors": ["sqlpuzzle/_queries/update.py:Update", "sqlpuzzle/_queryparts/values.py:Values.set", "sqlpuzzle/_queryparts/conditions.py:Conditions.where"]}
{"id": "C69", "title": "An insert program appends exactly the rows it names", "statement": "After insert_into(t) and any sequence of values(...) calls with differing columns, every call succeeds, the query renders, and a server executing the text appends one row per call, in order, with the last value given for each column and NULL for columns not named.", "quantifier": "every sequence of calls, every table content", "why_tests_cant": "all combinations of column sets across rows, notations and values", "anchors": ["sqlpuzzle/_queries/insert.py:Insert", "sqlpuzzle/_queryparts/values.py:MultipleValues", "sqlpuzzle/_common/argsparser.py:parse_args"]}
{"id": "C70", "title": "A select program answers with the rows, columns and order it names", "statement": "After any sequence of columns, from_(t), where, order_by, limit, offset and for_update calls, every call succeeds, the query renders, and the possible answers of a server to the text are exactly: the rows satisfying all pairs, sorted by the columns asked for with the last direction asked, cut by the last limit and offset, showing the distinct columns asked for in order of first request under their aliases.", "quantifier": "every sequence of calls, every table content, every comparison and collation of the server", "why_tests_cant": "the composition of argument reading, de-duplication, rendering and the server's reading over all programs and data", "anchors": ["sqlpuzzle/_queries/select.py:Select", "sqlpuzzle/_queryparts/columns.py:Columns", "sqlpuzzle/_queryparts/order.py:Order", "sqlpuzzle/_queryparts/limit.py:Limit"]}
{"id": "C71", "title": "Conditions combined with Q, Not, & and | select the rows the expression says", "statement": "Expressions built from Q(...), Not(...), & and | over column/value pairs, nested to any depth, do not raise. A delete, update or select program whose where calls get such objects or pairs, in any mixture, succeeds and renders, and a server reading the text deletes, changes or returns exactly the rows for which every pair is true and every expression is true in SQL's three-valued logic.", "quantifier": "every expression, every sequence of calls, every table content, every comparison of the server", "why_tests_cant": "expressions have any depth and shape; textual de-duplication of objects, bracketing, NULLs under Not and the server's precedence rules interact", "anchors": ["sqlpuzzle/_queryparts/conditions.py:Conditions", "sqlpuzzle/_queryparts/conditions.py:ConditionsOfConditions", "sqlpuzzle/_queryparts/conditions.py:Not", "sqlpuzzle/_queryparts/queryparts.py:QueryParts.append_unique_part", "sqlpuzzle/_common/object.py:Object.__eq__"]}
{"id": "C72", "title": "SQL objects are ordered by their texts", "statement": "For any two of C, V, R, functions, exists(...), Not(...), combined conditions and strings, at least one of them not a string, a < b, a > b, a <= b, a >= b and a == b do not raise and say exactly how the texts compare, whichever operand is on the left. Comparing such an object with other data raises TypeError in both orders. Queries do not have this property: they are ordered by text but equal only part by part, so two queries can each be greater than the other.", "quantifier": "every pair of objects or strings whose text can be made, every backend", "why_tests_cant": "the four operators are derived from one by functools.total_ordering and reflected by Python, and == is redefined in subclasses; agreement must hold for every pair", "anchors": ["sqlpuzzle/_common/object.py:Object.__lt__", "sqlpuzzle/_common/object.py:Object.__eq__", "sqlpuzzle/_queries/query.py:Query.__eq__"]}
{"id": "C73", "title": "Dictionaries may have SQL objects as keys and are read in the order of the texts", "statement": "A dictionary given to any builder call, Q or Not, whose keys are strings or SQL objects with different texts, has the effect of the tuples (key, value) in the order of the texts; the order of its entries does not matter. A dictionary with both texts and numbers as keys raises TypeError and leaves the query unchanged.", "quantifier": "every dictionary of any size, every query state, every builder call", "why_tests_cant": "depends on the whole set of keys and on the comparison of every pair of them", "anchors": ["sqlpuzzle/_common/argsparser.py:Parser._parse_dictionary", "sqlpuzzle/_common/object.py:Object.__lt__"]}
{"id": "C74", "title": "A select program over several tables returns the joined rows it asks for", "statement": "A program that builds a SELECT by calls of columns, from_, from_table, join, left_join, right_join, full_join, on, where, order_by, limit, offset and for_update, with plain names and data and no two tables under one name, raises nothing, and its text is a statement whose answers on every database are: combine the tables of each from_ with the joins made after it, in the order of the calls and by the kind of each join; a pair of on belongs to the join before it and a string in it is a column; separate tables give all combinations; keep the combinations for which all pairs of where are true, sort them, cut them by limit and offset, show the columns asked for. Repeated columns and conditions in such a program never change the answer.", "quantifier": "every sequence of such calls (any length, any order in which joins have a table before them and on a join), every backend for each call and for the text, every database, server with comparisons readable from both sides, way to resolve columns and order of values", "why_tests_cant": "combines argument reading, removal of repeated conditions, attachment of on to joins, rendering and the meaning of the SQL for unboundedly many programs and databases", "anchors": ["sqlpuzzle/_queryparts/tables.py:TablesForSelect", "sqlpuzzle/_queryparts/tables.py:Table", "sqlpuzzle/_queryparts/tables.py:OnCondition", "sqlpuzzle/_queries/select.py:Select"]}
{"id": "C75", "title": "An insert program does to a table with unique keys what it says about duplicates", "statement": "A program insert_into(t) followed by values, on_duplicate_key_update and ignore, with plain names and data, raises nothing, and its text is a statement that handles the rows in the order of the values calls: a row that agrees with no existing row in a unique key is added; otherwise on MySQL the existing row gets the values of on_duplicate_key_update, the last one given for each column, and the other columns are kept; on SQLite, if on_duplicate_key_update() was called, the existing rows are replaced; without it the row is left out if the last ignore() asked for that and is an error if not.", "quantifier": "every sequence of such calls, every table contents, every set of unique keys, every comparison of the server", "why_tests_cant": "the outcome depends on the order of calls, on the existing rows and on conflicts among the new rows themselves", "anchors": ["sqlpuzzle/_queries/insert.py:Insert.on_duplicate_key_update", "sqlpuzzle/_queries/insert.py:InsertKeyword", "sqlpuzzle/_queryparts/onduplicatekeyupdate.py:OnDuplicateKeyUpdate", "sqlpuzzle/_queryparts/values.py:Values"]}
{"id": "C76", "title": "A select program with groups and aggregate functions returns the groups it asks for", "statement": "A program that builds a SELECT by calls of columns, from_, from_table, joins, on, where, group_by, having, order_by, limit, offset and for_update, where columns, having and order_by take column names and the aggregate functions Avg, Count, Max, Min, Sum with or without distinct, raises nothing, and its text is a statement whose answers on every database are: the joined rows that pass where, put into one group per combination of values of the group_by columns (one group of all rows if there are only aggregates), the groups for which all pairs of having are true, sorted, cut by limit and offset, each shown as the columns asked for, with their aliases. Repeated columns, keys and conditions never change the answer.", "quantifier": "every sequence of such calls, every backend for each call and for the text, every database, server comparison, aggregate computation, column resolution, equality and order of values, servers that do and that do not know aliases in HAVING", "why_tests_cant": "combines argument reading, removal of repeated parts (whose equality compares texts), rendering and the meaning of grouped SQL for unboundedly many programs and databases", "anchors": ["sqlpuzzle/_queryparts/groupby.py:GroupBy", "sqlpuzzle/_queryparts/having.py:Having", "sqlpuzzle/_queryparts/functions.py:FunctionWithDistinct", "sqlpuzzle/_queryparts/columns.py:Columns", "sqlpuzzle/_queries/select.py:Select"]}
{"id": "C77", "title": "A union program returns the rows its expression asks for", "statement": "Selects of the same number of columns, each built by calls of columns, from_ and where (pairs or condition objects), and combined in any way with & and |, raise nothing, and the text is a chain of SELECTs with UNION and UNION ALL whose answers on every database are exactly the tables in which every row occurs as often as SQL's left-to-right reading of the operators gives, from how often each operand asks for it. For the expressions whose nesting is read as written (see C42) this is what the Python expression says: & adds the numbers, | gives one copy.", "quantifier": "every union expression of any size and nesting, every sequence of such calls for each operand, every backend, database and server comparison", "why_tests_cant": "combines argument reading, rendering, reading back of unions and bag semantics for unboundedly many expressions, programs and databases", "anchors": ["sqlpuzzle/_queries/union.py:Union", "sqlpuzzle/_queries/select.py:Select.__and__", "sqlpuzzle/_queries/select.py:Select.__or__"]}
{"id": "C78", "title": "Rendering raises only for an empty list, a missing confirmation, an unnamed column or an unprintable value", "statement": "str() of a query, condition, function or relation raises only if somewhere in it, at any depth, there is an empty list used as a value, an update or delete without a condition that was not allowed, an insert row that is not made of named columns, or a foreign value that Python itself cannot print; and each of these does make it raise, except inside a join that repeats an earlier one. Consequently a query built by any calls, failed or not, whose arguments contain no empty list and only SQL objects that print, renders under every backend; only an update or delete may raise its confirmation exception.", "quantifier": "every object of any size and nesting, every sequence of calls with any such arguments, every backend", "why_tests_cant": "a forgotten case is a particular combination of clause, kind of object and nesting; tests render a few", "anchors": ["sqlpuzzle/_queries/query.py:Query.__str__", "sqlpuzzle/_backends/sql.py:SqlBackend", "sqlpuzzle/_queryparts/values.py:MultipleValues", "sqlpuzzle/_queryparts/tables.py:Table", "sqlpuzzle/_common/sqlvalue.py:SqlValue", "sqlpuzzle/_common/sqlvalue.py:SqlReference"]}
{"id": "C79", "title": "Every object made through the API prints under every backend and can be compared", "statement": "Take any object made by the library's functions, nested in any way: C, V, R, relations, Q, Not, & and |, exists, avg, count, max, min, sum with distinct, concat, group_concat with order_by and separator, convert, select with all its methods, unions; with arguments that are data, non-empty lists, dictionaries with data keys, or again such objects; with configure() called anywhere in between and with failed calls in between. It prints under every backend and can be compared with every other such object without an exception. Updates, deletes and inserts with such objects as arguments print too, up to their confirmation exceptions, and calls with such arguments raise only InvalidArgumentException or InvalidQueryException (apart from the calls listed in C44).", "quantifier": "every object of the API, of any nesting; every sequence of calls; every backend at every call", "why_tests_cant": "the combinations of constructors are unbounded and a single unsupported nesting is an exception at the user's call of str()", "anchors": ["sqlpuzzle/__init__.py", "sqlpuzzle/_queryparts/functions.py:Function", "sqlpuzzle/_queryparts/conditions.py:Conditions", "sqlpuzzle/_queries/union.py:Union", "sqlpuzzle/relations.py:_RelationValue"]}
{"id": "C80", "title": "Queries inside conditions select the rows asked for", "statement": "Build select(...).from_(t).where(...), delete_from(t).where(...) or update(t).set(...).where(...) where conditions contain queries: column IN (query), column compared with a query, exists(query), combined with Q, Not, & and |, nested to any depth, with aliases and with R('t.c') referring to rows of the queries around. No call raises, and the server reading the text returns, deletes or updates exactly the rows which the nested conditions ask for in three-valued logic; it refuses the statement exactly if what is asked for makes no sense (an unknown column, a query of several rows or columns used as a value).", "quantifier": "every nesting of queries and conditions of any depth and width, every spelling of the arguments, every database, server comparison and aggregate function, every backend", "why_tests_cant": "precedence, bracketing of subqueries, merging of equal conditions and resolution of correlated names interact with arbitrary nesting; a test fixes one tree and one database", "anchors": ["sqlpuzzle/_queryparts/conditions.py: Conditions.where, Condition", "sqlpuzzle/_queryparts/columns.py: Columns.columns", "sqlpuzzle/_queryparts/tables.py: Tables.set", "sqlpuzzle/_queries/select.py: Select", "sqlpuzzle/relations.py: _RelationValue", "sqlpuzzle/_backends/sql.py"]}
{"id": "C81", "title": "One except clause catches everything a program can raise", "statement": "except SqlPuzzleException catches every exception class of the library, except ConfirmException both confirmation exceptions and nothing else, except InvalidArgumentException also InvalidQueryException and nothing else. In any program that builds a select, insert, update or delete from objects of the API (and makes none of the calls listed in C44), a clause for InvalidArgumentException around the calls misses no exception; str() of a select or insert built does not raise, and around str() of an update or delete a clause for ConfirmException misses nothing, nor does one for ConfirmUpdateAllException around an update's or ConfirmDeleteAllException around a delete's.", "quantifier": "every sequence of calls with every such argument, every backend, every handler", "why_tests_cant": "a test shows that one call raises one class; that no other class can escape is a statement about all calls, arguments and orders", "anchors": ["sqlpuzzle/exceptions.py", "sqlpuzzle/_queries/update.py: Update.__str__", "sqlpuzzle/_queries/delete.py: Delete.__str__", "sqlpuzzle/_common/argsparser.py: parse_args"]}
{"id": "C82", "title": "repr shows class and text", "statement": "repr() of an object raises exactly the exception str() of it raises, and two objects with the same repr() are of the same class and have the same text.", "quantifier": "every pair of objects of the library, every backend", "why_tests_cant": "injectivity is a statement about all pairs of objects and texts, including texts that contain the delimiters of repr", "anchors": ["sqlpuzzle/_common/object.py: Object.__repr__"]}
{"id": "C83", "title": "Building with shared objects does what building with values does", "statement": "A builder method called with objects (lists, dictionaries, condition objects, other queries), which the caller keeps and may share between calls and queries, leaves the query in the state the same method makes of the values those objects have at that moment, and raises the same exceptions; a new query is empty and nothing refers to it; chains of calls likewise.", "quantifier": "every program that creates and changes objects, creates queries and calls their methods; every state it reaches; every query and every call with any objects it has, shared in any way (excluded and stated: the query inside its own arguments or inside itself, generators, a join dictionary that is inside the query)", "why_tests_cant": "all object graphs, all patterns of sharing and all histories; tests always build their arguments freshly", "anchors": ["sqlpuzzle/_common/argsparser.py: parse_args", "sqlpuzzle/_queryparts/queryparts.py: QueryParts.append_unique", "sqlpuzzle/_queryparts/tables.py: TablesWithJoins", "sqlpuzzle/_queries/select.py: Select", "sqlpuzzle/_queries/insert.py: Insert", "sqlpuzzle/_queries/update.py: Update", "sqlpuzzle/_queries/delete.py: Delete"]}
{"id": "C84", "title": "A call changes only the query it is made on", "statement": "A method call writes to no object that can be reached from a reference that does not contain the query itself, a generator given to the call, or the one-entry dictionary given to join: other queries, arguments and everything inside them are as they were.", "quantifier": "every program, every state it reaches, every call, every reference the program has", "why_tests_cant": "absence of writes to all other objects in all heaps and histories", "anchors": ["sqlpuzzle/_queries/query.py: Query", "sqlpuzzle/_queryparts/queryparts.py: QueryParts", "sqlpuzzle/_queryparts/tables.py: Table.join"]}
{"id": "C85", "title": "Operands of & and |", "statement": "An expression of & and | is accepted exactly if each operator is between conditions (the results of where objects, Q and combinations) or has a select or union on the left and an SQL object on the right; anything else raises TypeError or InvalidArgumentException, never builds a query. A combination of conditions means AND and OR of its operands; unions are taken of selects and unions only.", "quantifier": "every expression of any shape and depth over any Python objects", "why_tests_cant": "all expressions and all types of operands", "anchors": ["sqlpuzzle/_queryparts/conditions.py: BinaryOperationMixin", "sqlpuzzle/_queries/select.py: Select.__and__", "sqlpuzzle/_queries/union.py: Union"]}
{"id": "C86", "title": "Calls on several queries in any order", "statement": "When a program calls methods of several queries in any order, going on after exceptions, each query that shares no changed object with the others ends up as its own calls alone make it, each of its calls raises exactly if it raises alone, and two orders that agree on the calls of one query agree on that query. Sharing unchanged objects (lists, dictionaries, finished queries) does no harm, and a query not inside itself never gets inside itself by such calls.", "quantifier": "every program, every state it reaches, every interleaving of calls of any length", "why_tests_cant": "all interleavings over all heaps", "anchors": ["sqlpuzzle/_queries/query.py: Query", "sqlpuzzle/_queries/select.py: Select", "sqlpuzzle/_queryparts/queryparts.py: QueryParts"]}
{"id": "C87", "title": "A copy goes its own way in any program", "statement": "In the middle of any program query.copy() gives a new query that says what the original says and changes nothing. Whatever methods the program then calls on whatever queries in whatever order (the original, queries inside the original, the copy, others), the copy ends up as its own calls alone make it from what the original said at the moment of copying, and the original and every other query are disturbed by calls of the copy no more than by calls of an unrelated query.", "quantifier": "every program (creating and changing objects, creating, calling and copying queries), every state it reaches, every query, every continuation of any length", "why_tests_cant": "all object graphs with all patterns of sharing, and all interleavings afterwards", "anchors": ["sqlpuzzle/_common/object.py: Object.copy", "sqlpuzzle/_queryparts/queryparts.py: QueryParts", "sqlpuzzle/_queries/select.py: Select"]}
{"id": "C88", "title": "The functions a program starts with start the statement they name", "statement": "select(columns).from_(tables) prints SELECT with exactly these columns (or * without columns) and FROM with exactly these tables, in the given order, each quoted; select_from(tables) prints SELECT * FROM them. delete(targets).from_(tables) prints DELETE targets FROM tables and delete_from(tables) prints DELETE FROM tables, without naming targets; both are refused by str() until confirmed. update(table).set(column=number) prints UPDATE table SET column = number, refused until confirmed, and insert_into(table).values(column=number) prints INSERT INTO table (column) VALUES (number).", "quantifier": "every backend, every list (of any length) of distinct names without dots and quotes, every integer", "why_tests_cant": "all lists of names of any length and all names", "anchors": ["sqlpuzzle/__init__.py: select, select_from, insert_into, update, delete, delete_from", "sqlpuzzle/_queries/delete.py: Delete", "sqlpuzzle/_queries/select.py: Select", "sqlpuzzle/_queries/insert.py: Insert", "sqlpuzzle/_queries/update.py: Update"]}
{"id": "C89", "title": "Printing queries of a program changes no text", "statement": "However often queries of a program are printed with str(), in whatever order and whatever objects they share, every object of the program prints afterwards exactly what it printed before; objects that contain none of the printed queries are not touched at all, and no query gets inside itself. Printing a query also does not change what later calls on the queries inside it do.", "quantifier": "every program (any objects, queries, copies, sharing, earlier calls and printing), every sequence of printings, every object of the program", "why_tests_cant": "str() writes to the joins of tables, and the objects written to may be shared in any way between queries", "anchors": ["sqlpuzzle/_queryparts/tables.py: Table.__str__, Table._minimize_joins", "sqlpuzzle/_queries/query.py: Query.__str__"]}
{"id": "C90", "title": "A DELETE of several tables removes exactly the rows asked for", "statement": "A program of calls of delete, from_, from_table, join, left_join, right_join, on, where, allow_delete_all, forbid_delete_all and ignore raises nothing and its text is read by a server as a statement that removes, from the tables given to delete, exactly the rows that take part in a combination of rows satisfying the conditions given to where; the combinations are those of the tables and joins asked for, with the conditions given to on. All other rows stay, in their order, and all other tables are unchanged.", "quantifier": "every backend and change of backend between calls, every program of such calls, every database, every server (comparison of values, way to find columns)", "why_tests_cant": "all programs, all data and all databases, including rows that are equal and tables that occur twice under different names", "anchors": ["sqlpuzzle/_queries/delete.py: Delete", "sqlpuzzle/_queryparts/tables.py: Tables", "sqlpuzzle/_queryparts/conditions.py: Conditions"]}
{"id": "C91", "title": "An UPDATE of several tables changes exactly the cells asked for", "statement": "A program of calls of update, join, left_join, right_join, on, set, where, allow_update_all, forbid_update_all and ignore raises nothing and its text is read by a server as a statement after which every row of every table that takes part in a combination satisfying the conditions has, in each column for which a value was given to set for the table it is there under, the last value given, and every other cell is as before. (No value of a column may come back after another one, see C33.)", "quantifier": "every backend and change of backend between calls, every program of such calls, every database, every server (comparison of values, ways to find columns and to tell the table of a column)", "why_tests_cant": "all programs, all data and all databases, including columns named with and without their table", "anchors": ["sqlpuzzle/_queries/update.py: Update", "sqlpuzzle/_queryparts/tables.py: Tables", "sqlpuzzle/_queryparts/values.py: Values"]}
{"id": "C92", "title": "distinct() asks for each row once", "statement": "A select program over one or several tables (as in C74) with calls of distinct, distinctrow, all, sql_cache and the other options anywhere among its calls raises nothing, and its text is read by a server as a statement whose answers are exactly the rows asked for: if the last call about duplicates turns distinct or distinctrow on, one of all rows that show the same cells, in the order asked for, cut by limit and offset after the duplicates are gone; otherwise every row as often as it occurs. The other options do not change the answer.", "quantifier": "every backend and change of backend between calls, every program of such calls, every database, every server (comparison and order of values, way to find columns)", "why_tests_cant": "all programs, all orders of option calls among the others, all data and all databases", "anchors": ["sqlpuzzle/_queries/select.py: Select", "sqlpuzzle/_queries/selectoptions.py: SelectOptions"]}
{"id": "C93", "title": "Conditions made by Q, Not, & and | mean in joins what they say", "statement": "Select, delete and update programs over one or several tables (as in C92, C90, C91), in which where is also given objects made by Q(...), Not(...), & and |, raise nothing, and their texts are read by a server as statements that show, remove or change exactly the combinations of rows for which every pair and every object given to where holds: a pair holds as in C67, Q of pairs if all of them do, & if both sides do, | if one does, Not if its inside does not (an unknown outcome counts as not holding only at the end).", "quantifier": "every backend, every program of such calls (where called under the backend the text is made for, other calls under any), every nesting of Q, Not, &, |, every database, every server", "why_tests_cant": "all nestings, all programs, all data and all databases", "anchors": ["sqlpuzzle/_queryparts/conditions.py: Conditions, ConditionsOfConditions, Not", "sqlpuzzle/_queries/select.py: Select", "sqlpuzzle/_queries/delete.py: Delete", "sqlpuzzle/_queries/update.py: Update"]}
{"id": "C94", "title": "Groups, distinct and Q conditions work together", "statement": "A select program over one or several tables with aggregates, group_by and having (as in C76), with calls of distinct, distinctrow, all and the other options anywhere among its calls, and with conditions made by Q(...), Not(...), & and | given to where, raises nothing, and its text is read by a server as a statement whose answers are exactly those asked for: the combinations of rows for which every condition holds are grouped, the groups that satisfy having are kept, if distinct is asked for one of all groups that show the same cells, sorted and cut by limit and offset.", "quantifier": "every backend, every program of such calls (where called under the backend the text is made for, other calls under any), every nesting of Q, Not, &, |, every database, every server (comparison, order, grouping and aggregation of values)", "why_tests_cant": "all programs, all orders of calls, all nestings of conditions, all data and all databases", "anchors": ["sqlpuzzle/_queries/select.py: Select", "sqlpuzzle/_queryparts/groupby.py: GroupBy", "sqlpuzzle/_queryparts/having.py: Having", "sqlpuzzle/_queryparts/conditions.py: Conditions, ConditionsOfConditions, Not"]}
{"id": "C95", "title": "Conditions made by Q, Not, & and | mean in HAVING what they say", "statement": "In a select program with groups (as in C94) having may be given objects made by Q(...), Not(...), & and | out of conditions on columns, aliases and aggregates, as well as pairs. Making such objects raises nothing, the program raises nothing, and its text is read by a server as a statement whose answers are exactly those asked for: of the groups those are kept of which every condition given to having is true, in the three-valued sense, Not negating, & and | combining what they are applied to.", "quantifier": "every backend, every program of such calls (where and having called under the backend the text is made for, other calls under any), every nesting of Q, Not, &, |, every database, every server (comparison, order, grouping and aggregation of values)", "why_tests_cant": "all programs, all orders of calls, all nestings of conditions, all data and all databases", "anchors": ["sqlpuzzle/_queries/select.py: Select.having", "sqlpuzzle/_queryparts/having.py: Having", "sqlpuzzle/_queryparts/conditions.py: Conditions, ConditionsOfConditions, Not", "sqlpuzzle/_queryparts/conditions.py: Condition"]}
{"id": "C96", "title": "Fractional numbers given to a program reach the server", "statement": "A finite float or Decimal used as data in where, set or values is read by the server as a decimal number that differs from it by at most half a unit of the fifth decimal, and the rows a program of update, insert, delete or select calls touches are those asked for with that number.", "quantifier": "every finite float and Decimal of any magnitude, every backend, every position of a program where data may stand", "why_tests_cant": "There are unboundedly many numbers, and rounding or sign errors show only at particular ones.", "anchors": ["sqlpuzzle/_common/sqlvalue.py: SqlValue._float"]}
{"id": "C97", "title": "has() with regular expressions", "statement": "The word given to has(part, word) may be a regular expression made of characters, the dot, \\w, \\W, anchors, groups, alternatives and repetitions. The answer is true exactly if something the expression fits stands in the part's text and is not part of a longer word. A bar outside brackets gives up the word boundary on one side of each alternative, a star alone is found in every part that is set, and a call with a star such as COUNT(*) raises the error of re.", "quantifier": "every such expression of any size and nesting, every part of every statement built by any calls, every text", "why_tests_cant": "There are unboundedly many expressions and texts, and precedence or boundary mistakes show only for some combinations.", "anchors": ["sqlpuzzle/_queryparts/queryparts.py: has", "sqlpuzzle/_queries/selectoptions.py: SelectOptions.has", "sqlpuzzle/_queries/query.py: Query.has"]}
{"id": "C98", "title": "Unions of selects over joined tables", "statement": "Selects over any tables and joins, with options such as distinct and any conditions, combined with & and |, evaluate to one statement. In its answer each row is as often as the answers to the combined selects, each executed on its own, and the operators, applied from left to right as SQL does, say. For expressions that SQL reads as they are meant, it is as often as the expression itself says. The selects have the same number of named columns and no grouping, order, limit, offset or locking.", "quantifier": "every expression of & and | of any size over such selects, every backend, database and way the server compares values and finds columns", "why_tests_cant": "Whether a union composes the answers of its parts depends on the whole text of every part; there are unboundedly many expressions, selects and databases.", "anchors": ["sqlpuzzle/_queries/union.py: Union", "sqlpuzzle/_queries/select.py: Select.__and__, Select.__or__", "sqlpuzzle/_queryparts/tables.py: Tables", "sqlpuzzle/_queries/selectoptions.py: SelectOptions"]}
{"id": "C99", "title": "A union answers what its operands answer", "statement": "Selects combined with & and |, grouped ones included, evaluate to one statement. Whatever tables the server may answer to one SELECT, it may answer a table to that statement exactly if it may answer tables to the combined selects, each executed on its own, from which each row is taken as often as the operators, applied from left to right, say; or, for expressions that SQL reads as they are meant, as often as the expression says. The selects have the same number of columns, no stars, and no order, limit, offset or locking.", "quantifier": "every expression of & and | of any size over such selects, every backend, every relation between SELECT statements and the tables a server may answer", "why_tests_cant": "No test covers every server and every select; that the text of an operand means inside a union what it means alone is a statement about all texts.", "anchors": ["sqlpuzzle/_queries/union.py: Union", "sqlpuzzle/_queries/select.py: Select.__and__, Select.__or__, Select"]}
{"id": "C100", "title": "The functions of the module make what they name", "statement": "sqlpuzzle.avg, count, max, min, sum and their _distinct forms make the SQL function of that name, with DISTINCT exactly for the _distinct forms, of the expression given by position or as expr=; count() and count_distinct() are of *. Every other call of them raises TypeError. concat and group_concat print their columns in the order given, convert its column and its type in capitals however both are given, exists the text of its argument. Not takes what Q takes and prints NOT around it. C, V and R are customsql, sqlvalue and sqlreference. select, select_from, delete, delete_from, update and insert_into start the statement they name. insert() with arguments, insert_into() and update() without a table or with several arguments, and delete() with keywords raise TypeError. What the functions that make values, conditions, functions and selects make prints under every backend.", "quantifier": "every argument and keyword list, every name and list of names, every backend", "why_tests_cant": "all argument lists, keywords included, and all values; there are ten near-identical functions that copy-paste errors can confuse", "anchors": ["sqlpuzzle/__init__.py: avg", "sqlpuzzle/__init__.py: avg_distinct", "sqlpuzzle/__init__.py: count", "sqlpuzzle/__init__.py: convert", "sqlpuzzle/__init__.py: exists", "sqlpuzzle/_queryparts/functions.py: FunctionWithDistinct"]}
