(** has(): C47.  Specification: SpecHas.v (parts, whole words), SpecClauses.v (clauses). *)
From Coq Require Import Lia.
From Verif Require Import Base NumFmt Value Backend Eq Render ParseArgs Build Queries History Demo
  SpecArgs SpecHistory SpecClauses SpecHas PfHas.
Open Scope N_scope.

(** C47.  In a select built by any calls, has(part) is true iff the part is in the text,
    and has(part, word) iff the word occurs in the part's text as a whole word.  The word may
    be any object with a text.  Special characters act as in regular expressions ([fits]);
    a word without them occurs if it stands there itself: C47_plain_word. *)
Theorem C47_select_partial : forall E H n l, let q := calls sel_step empty_select H in select_part E (map snd H) q n l ->
  answers (sel_has (pure_world E) q n VNone) (l <> []) /\
  forall v w, asked_word E v w -> simple_pattern w -> answers (sel_has (pure_world E) q n v) (l <> [] /\ occurs E w (words l)).
Proof. exact select_has. Qed.
Print Assumptions C47_select_partial.
Theorem C47_plain_word : forall E w, w <> [] -> plain w ->
  asked_word E (VStr w) w /\ simple_pattern w /\ forall s, occurs E w s <-> whole_word E w s.
Proof. exact plain_word. Qed.
Print Assumptions C47_plain_word.
(** has(part) also answers for parts that cannot be rendered. *)
Theorem C47_select_set_partial : forall E q n P, collected q n P -> answers (sel_has (pure_world E) q n VNone) P.
Proof. exact select_has_collected. Qed.
Print Assumptions C47_select_set_partial.
(** The options: upper case does not matter, and a name that is no part is looked up there. *)
Theorem C47_select_options_partial : forall E H, let q := calls sel_step empty_select H in
  (forall v w, asked_word E v w -> simple_pattern (supper E w) -> answers (sel_has (pure_world E) q (lit "select_options") v)
          (select_options (map snd H) <> [] /\ occurs E (supper E w) (words (select_options (map snd H))))) /\
  (forall w, w <> [] -> simple_pattern (supper E w) -> ~ In w select_names -> answers (sel_has (pure_world E) q w VNone)
          (select_options (map snd H) <> [] /\ occurs E (supper E w) (words (select_options (map snd H))))).
Proof. exact select_has_option. Qed.
Print Assumptions C47_select_options_partial.
(** has('distinct'), has('sql_cache') and so on say whether the option is on now. *)
Theorem C47_switches_partial : forall E H,
  (forall k, sel_has (pure_world E) (calls sel_step empty_select H) (map ascii_lower (option_name k)) VNone = Ok (option_on (map snd H) k)) /\
  sel_has (pure_world E) (calls sel_step empty_select H) (lit "select_for_update") VNone = Ok (locked (map snd H)).
Proof. intros E H. exact (conj (select_has_switch E H) (select_has_lock E H)). Qed.
Print Assumptions C47_switches_partial.
Theorem C47_update_partial : forall E q n l, update_part E q n l ->
  answers (upd_has (pure_world E) q n VNone) (l <> []) /\
  forall v w, asked_word E v w -> simple_pattern w -> answers (upd_has (pure_world E) q n v) (l <> [] /\ occurs E w (words l)).
Proof. exact update_has. Qed.
Print Assumptions C47_update_partial.
Theorem C47_delete_partial : forall E q n l, delete_part E q n l ->
  answers (del_has (pure_world E) q n VNone) (l <> []) /\
  forall v w, asked_word E v w -> simple_pattern w -> answers (del_has (pure_world E) q n v) (l <> [] /\ occurs E w (words l)).
Proof. exact delete_has. Qed.
Print Assumptions C47_delete_partial.
Theorem C47_insert_partial : forall E q n l, insert_part E q n l ->
  answers (ins_has (pure_world E) q n VNone) (l <> []) /\
  forall v w, asked_word E v w -> simple_pattern w -> answers (ins_has (pure_world E) q n v) (l <> [] /\ occurs E w (words l)).
Proof. exact insert_has. Qed.
Print Assumptions C47_insert_partial.
Theorem C47_ignore_partial : forall E,
  (forall q, upd_has (pure_world E) q (lit "update_options") VNone = Ok (u_ignore q)) /\
  (forall q, del_has (pure_world E) q (lit "delete_options") VNone = Ok (d_ignore q)) /\
  (forall q, ins_has (pure_world E) q (lit "insert_options") VNone = Ok (i_ignore q)).
Proof. exact other_options. Qed.
Print Assumptions C47_ignore_partial.
(** Where the statement fails: with FOR UPDATE set, has('select_for_update', 'UPDATE') is
    false and has('select_for_update', 'copy') true; insert has('keyword') raises; a dot in
    the word is a wildcard: has('where', '1.5') finds 105. *)
Theorem C47_word_refuted :
  (exists q, text (demo BSql) (VSelect q) = Ok (lit "SELECT * FROM ""t"" FOR UPDATE") /\
     sel_has (demoW BSql) q (lit "select_for_update") (vs "UPDATE") = Ok false /\
     sel_has (demoW BSql) q (lit "select_for_update") (vs "copy") = Ok true) /\
  ins_has (demoW BSql) empty_insert (lit "keyword") VNone = Err EAttributeError /\
  (exists q, text (demo BSql) (VSelect q) = Ok (lit "SELECT * FROM ""t"" WHERE ""a"" = 105") /\
     sel_has (demoW BSql) q (lit "where") (vs "1.5") = Ok true /\ ~ whole_word (demo BSql) (lit "1.5") (lit "WHERE ""a"" = 105")).
Proof.
  split; [|split; [reflexivity|]].
  2:{ exists (calls sel_step empty_select [(demoW BSql, SFrom [vs "t"] []); (demoW BSql, SWhere [vs "a"; VInt 105] [])]).
      split; [vm_compute; reflexivity|]. split; [vm_compute; reflexivity|].
      intros [a [b [H _]]]. assert (X : In 46 (lit "WHERE ""a"" = 105")) by (rewrite H; apply in_or_app; right; apply in_or_app; left; vm_compute; tauto).
      vm_compute in X. intuition discriminate. }
  exists (calls sel_step empty_select [(demoW BSql, SFrom [vs "t"] []); (demoW BSql, SForUpdate (VBool true))]).
  split; [vm_compute; reflexivity|]. split; reflexivity.
Qed.
Print Assumptions C47_word_refuted.

Definition has_q : selq val := calls sel_step empty_select
  [(demoW BSql, SFrom [vs "t"] []); (demoW BSql, SWhere [vs "name"; vs "Jo hn"] []); (demoW BSql, SOpt ODistinct (VBool true))].
Example C47_select_ex : sel_has (demoW BSql) has_q (lit "where") VNone = Ok true /\
  sel_has (demoW BSql) has_q (lit "having") VNone = Ok false /\
  sel_has (demoW BSql) has_q (lit "where") (vs "name") = Ok true /\
  sel_has (demoW BSql) has_q (lit "where") (vs "nam") = Ok false /\
  sel_has (demoW BSql) has_q (lit "distinct") VNone = Ok true /\
  sel_has (demoW BSql) has_q (lit "sql_cache") VNone = Ok false.
Proof. vm_compute. repeat split; reflexivity. Qed.
Example C47_part_ex : exists l, clause (lit "WHERE ") (lit " AND ") (cond_text (demo BSql)) (s_where has_q) l /\ l <> [] /\
  select_part (demo BSql) [SFrom [vs "t"] []; SWhere [vs "name"; vs "Jo hn"] []; SOpt ODistinct (VBool true)] has_q (lit "where") l.
Proof.
  assert (C : clause (lit "WHERE ") (lit " AND ") (cond_text (demo BSql)) (s_where has_q) [lit "WHERE " ++ lit """name"" = 'Jo hn'"]).
  { apply cl_present. exists [lit """name"" = 'Jo hn'"]. split; [|reflexivity]. constructor; [vm_compute; reflexivity|constructor]. }
  exists [lit "WHERE " ++ lit """name"" = 'Jo hn'"].
  split; [exact C|]. split; [discriminate|]. apply sp_where, C.
Qed.
Example C47_whole_word : whole_word (demo BSql) (lit "name") (lit "WHERE ""name"" = 1") /\
  ~ whole_word (demo BSql) (lit "nam") (lit "WHERE ""name"" = 1").
Proof.
  assert (P : forall w, existsb rx_meta w = false -> plain w).
  { intros w H. apply Forall_forall. intros c I J. assert (existsb rx_meta w = true); [|congruence].
    apply existsb_exists. exists c. split; [exact I|]. apply meta_iff, J. }
  split.
  - apply plain_occurs; [apply P; reflexivity|]. apply (occurs_search _ (lit "name") (map Some (lit "name")) _ eq_refl). reflexivity.
  - intros X. apply plain_occurs in X; [|apply P; reflexivity]. apply (occurs_search _ (lit "nam") (map Some (lit "nam")) _ eq_refl) in X. discriminate X.
Qed.
(** A column of a table is not found by its dotted name, as the dot is between quotes; an
    escaped dot and a number are found. *)
Example C47_pattern : let q := calls sel_step empty_select
    [(demoW BSql, SColumns [vs "t.id"] []); (demoW BSql, SFrom [vs "t"] []); (demoW BSql, SWhere [vs "x"; VDec (NFin false 15 10)] [])] in
  text (demo BSql) (VSelect q) = Ok (lit "SELECT ""t"".""id"" FROM ""t"" WHERE ""x"" = 1.50000") /\
  sel_has (demoW BSql) q (lit "columns") (vs "t.id") = Ok false /\
  sel_has (demoW BSql) q (lit "columns") (vs "t...id") = Ok true /\
  sel_has (demoW BSql) q (lit "where") (vs "1\.50000") = Ok true /\
  sel_has (demoW BSql) q (lit "where") (vs "1\.5") = Ok false /\
  sel_has (demoW BSql) q (lit "where") (VInt 1) = Ok true /\
  asked_word (demo BSql) (VInt 1) (lit "1") /\ simple_pattern (lit "1\.50000").
Proof.
  intros q. repeat (split; [vm_compute; reflexivity|]). split; [split; reflexivity|].
  exists (lit "1.50000"). unfold lit. cbn.
  repeat first [apply f_escaped; [unfold ascii_alnum; lia|] | apply f_char; [vm_compute; intuition discriminate|]]. constructor.
Qed.
