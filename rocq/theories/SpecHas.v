(** Specification: has(). *)
From Verif Require Import Base Value Render Build Queries SpecArgs SpecHistory SpecClauses.
Open Scope N_scope.

(** Letters, digits and underscore; beyond ASCII as Python's \w says. *)
Definition word_char (E : env) (c : chr) : Prop :=
  (c < 128 /\ (48 <= c <= 57 \/ 65 <= c <= 90 \/ 97 <= c <= 122 \/ c = 95)) \/ (128 <= c /\ e_word E c = true).
(** [w] occurs in [s] and is not part of a longer word. *)
Definition whole_word (E : env) (w s : str) : Prop :=
  exists a b, s = a ++ w ++ b /\
    (forall x c, a = x ++ [c] -> ~ word_char E c) /\ (forall c x, b = c :: x -> ~ word_char E c).
(** A word without the special characters of regular expressions. *)
Definition special : list chr := lit "\.^$*+?{}[]|()".
Definition plain (w : str) : Prop := Forall (fun c => ~ In c special) w.
(** A word is read as a regular expression.  Here: one where a dot stands for any character
    but a newline, and a backslash takes the meaning from the character after it, which is
    no ASCII letter or digit.  The other special characters do not occur. *)
Definition ascii_alnum (c : chr) : Prop := 48 <= c <= 57 \/ 65 <= c <= 90 \/ 97 <= c <= 122.
Inductive fits : str -> str -> Prop :=
| f_end : fits [] []
| f_char : forall c w t, ~ In c special -> fits w t -> fits (c :: w) (c :: t)
| f_dot : forall c w t, c <> 10 -> fits w t -> fits (46 :: w) (c :: t)
| f_escaped : forall c w t, ~ ascii_alnum c -> fits w t -> fits (92 :: c :: w) (c :: t).
Definition simple_pattern (w : str) : Prop := exists t, fits w t.
(** Something the pattern fits occurs in [s] and is not part of a longer word. *)
Definition occurs (E : env) (w s : str) : Prop :=
  exists a m b, s = a ++ m ++ b /\ fits w m /\
    (forall x c, a = x ++ [c] -> ~ word_char E c) /\ (forall c x, b = c :: x -> ~ word_char E c).
(** What is given to has() as the word: any object with a text, but those Python takes for
    False. *)
Definition asked_word (E : env) (v : val) (w : str) : Prop := truthy v = true /\ text E v = Ok w.

(** The parts of a statement by the names has() uses; [] if the part is not set. *)
Inductive select_part (E : env) (ops : list selop) (q : selq val) : str -> list str -> Prop :=
| sp_columns : forall t, columns_text E (s_cols q) t -> select_part E ops q (lit "columns") [t]
| sp_tables : forall l, clause (lit "FROM ") (lit ", ") (table_text E) (s_tabs q) l -> select_part E ops q (lit "tables") l
| sp_where : forall l, clause (lit "WHERE ") (lit " AND ") (cond_text E) (s_where q) l -> select_part E ops q (lit "where") l
| sp_group : forall l, clause (lit "GROUP BY ") (lit ", ") (order_text E) (s_group q) l -> select_part E ops q (lit "group_by") l
| sp_having : forall l, clause (lit "HAVING ") (lit " AND ") (cond_text E) (s_having q) l -> select_part E ops q (lit "having") l
| sp_order : forall l, clause (lit "ORDER BY ") (lit ", ") (order_text E) (s_order q) l -> select_part E ops q (lit "order_by") l
| sp_limit : forall l, limit_words (wanted_limit ops) (wanted_offset ops) l -> select_part E ops q (lit "limit") l
| sp_outfile : forall l, out_clause E ops l -> select_part E ops q (lit "into_outfile") l.
Definition select_options (ops : list selop) : list str := map option_name (filter (option_on ops) alphabetical).
Definition select_names : list str :=
  map lit ["select_options"; "columns"; "tables"; "where"; "group_by"; "having"; "order_by"; "limit"; "into_outfile"; "select_for_update"]%string.
Inductive update_part (E : env) (q : updq val) : str -> list str -> Prop :=
| up_tables : forall l, clause [] (lit ", ") (table_text E) (u_tabs q) l -> update_part E q (lit "tables") l
| up_values : forall l, clause [] (lit ", ") (cond_text E) (u_vals q) l -> update_part E q (lit "values") l
| up_where : forall l, clause (lit "WHERE ") (lit " AND ") (cond_text E) (u_where q) l -> update_part E q (lit "where") l.
Inductive delete_part (E : env) (q : delq val) : str -> list str -> Prop :=
| dp_tables : forall l, clause [] (lit ", ") (table_text E) (d_tabs q) l -> delete_part E q (lit "tables") l
| dp_references : forall l, clause [] (lit ", ") (table_text E) (d_refs q) l -> delete_part E q (lit "references") l
| dp_where : forall l, clause (lit "WHERE ") (lit " AND ") (cond_text E) (d_where q) l -> delete_part E q (lit "where") l.
Inductive insert_part (E : env) (q : insq val) : str -> list str -> Prop :=
| ip_tables : forall l, clause [] (lit ", ") (table_text E) (i_tabs q) l -> insert_part E q (lit "tables") l
| ip_values : forall l, rows_clause E (i_rows q) l -> insert_part E q (lit "values") l
| ip_dup : forall l, clause (lit "ON DUPLICATE KEY UPDATE ") (lit ", ") (cond_text E) (i_dup q) l ->
    insert_part E q (lit "on_duplicate_key_update") l
| ip_conflict : forall c l, conflict_text E (i_conflict q) c ->
    clause (lit "ON CONFLICT (" ++ c ++ lit ") DO UPDATE ") (lit ", ") (cond_text E) (i_upd q) l ->
    insert_part E q (lit "on_conflict_do_update") l.
(** A yes-no answer. *)
Definition answers (x : res bool) (P : Prop) : Prop := (x = Ok true /\ P) \/ (x = Ok false /\ ~ P).
(** The parts that collect items, as the calls left them. *)
Definition collected (q : selq val) (n : str) (some : Prop) : Prop :=
  (n = lit "tables" /\ (some <-> s_tabs q <> [])) \/ (n = lit "where" /\ (some <-> s_where q <> [])) \/
  (n = lit "group_by" /\ (some <-> s_group q <> [])) \/ (n = lit "having" /\ (some <-> s_having q <> [])) \/
  (n = lit "order_by" /\ (some <-> s_order q <> [])).
