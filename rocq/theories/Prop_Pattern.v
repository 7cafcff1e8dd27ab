(** Property C97. *)
From Verif Require Import Base NumFmt Value Backend Eq Render ParseArgs Build Queries History SpecRef SpecArgs SpecHistory SpecClauses SpecHas SpecPattern
  PfHas PfWords Demo.
Open Scope N_scope.

(** C97.  The word given to has() may be any regular expression made of characters, the dot,
    \w and \W, anchors, groups, alternatives in brackets and repetitions.  The answer is true
    iff something it fits stands in the part's text and is not part of a longer word. *)
Theorem C97_pattern : forall E n l v p r, has_asked E n l v r -> asked_word E v (one_word p) ->
  answers r (l <> [] /\ found E p (words l)).
Proof. exact one_has. Qed.
Print Assumptions C97_pattern.
(** Alternatives that are not in brackets: a longer word that starts with what the first one
    fits will do, and one that ends with what the second one fits. *)
Theorem C97_alternatives : forall E n l v p q r, has_asked E n l v r -> asked_word E v (one_word p ++ lit "|" ++ one_word q) ->
  answers r (l <> [] /\ (found_start E p (words l) \/ found_end E q (words l))).
Proof. exact two_has. Qed.
Print Assumptions C97_alternatives.
(** A star alone is found in every part that is set, whatever its text. *)
Theorem C97_star : forall E n l v r, has_asked E n l v r -> asked_word E v (lit "*") -> answers r (l <> []).
Proof. exact star_has. Qed.
Print Assumptions C97_star.
(** Looking for a call with a star, such as COUNT( * ), raises the exception of re. *)
Theorem C97_call_raises : forall E n l v w r, has_asked E n l v r -> plain w -> asked_word E v (w ++ lit "(*)") -> l <> [] -> r = Err EException.
Proof. exact count_has. Qed.
Print Assumptions C97_call_raises.
(** In the options the word is looked for in upper case, \w too: then it is \W. *)
Theorem C97_options : forall E H v w p, let q := calls sel_step empty_select H in asked_word E v w -> supper E w = one_word p ->
  answers (sel_has (pure_world E) q (lit "select_options") v) (select_options (map snd H) <> [] /\ found E p (words (select_options (map snd H)))).
Proof. exact options_has. Qed.
Print Assumptions C97_options.

(** SELECT SQL_CACHE "id" FROM "t" WHERE "ideas" = 1 *)
Definition calls97 : list (world * selop) :=
  [(demoW BSql, SColumns [vs "id"] []); (demoW BSql, SFrom [vs "t"] []); (demoW BSql, SWhere [vs "ideas"; VInt 1] []); (demoW BSql, SOpt OSqlCache (VBool true))].
Definition select97 : selq val := calls sel_step empty_select calls97.
(** (idea|thought)s? *)
Definition word97 : pattern := Then (Or (fold_right (fun c p => Then (Sym c) p) Nothing (lit "idea")) (fold_right (fun c p => Then (Sym c) p) Nothing (lit "thought"))) (Maybe (Sym 115)).
Example C97_asked : text (demo BSql) (VSelect select97) = Ok (lit "SELECT SQL_CACHE ""id"" FROM ""t"" WHERE ""ideas"" = 1") /\
  one_word word97 = lit "(idea|thought)s?" /\ asked_word (demo BSql) (vs "(idea|thought)s?") (one_word word97) /\
  has_asked (demo BSql) (lit "where") [lit "WHERE " ++ lit """ideas"" = 1"] (vs "(idea|thought)s?") (sel_has (demoW BSql) select97 (lit "where") (vs "(idea|thought)s?")) /\
  sel_has (demoW BSql) select97 (lit "where") (vs "(idea|thought)s?") = Ok true /\
  sel_has (demoW BSql) select97 (lit "where") (vs "(idea|thought)") = Ok false /\
  sel_has (demoW BSql) select97 (lit "where") (vs "i\w*s") = Ok true /\
  sel_has (demoW BSql) select97 (lit "where") (vs "^WHERE") = Ok true /\
  sel_has (demoW BSql) select97 (lit "where") (vs "^ideas") = Ok false.
Proof.
  split; [vm_compute; reflexivity|]. split; [vm_compute; reflexivity|]. split; [split; vm_compute; reflexivity|]. split.
  - apply (ha_select (demo BSql) calls97). apply sp_where. apply cl_present. exists [lit """ideas"" = 1"]. split; [|reflexivity]. constructor; [vm_compute; reflexivity|constructor].
  - repeat (split; [vm_compute; reflexivity|]). vm_compute. reflexivity.
Qed.
(** The bar without brackets: idea|thought finds the word ideas. *)
Example C97_bar : sel_has (demoW BSql) select97 (lit "where") (vs "idea|thought") = Ok true /\
  sel_has (demoW BSql) select97 (lit "where") (vs "idea") = Ok false /\ sel_has (demoW BSql) select97 (lit "where") (vs "thought") = Ok false.
Proof. vm_compute. repeat split; reflexivity. Qed.
(** No star in "id", but has('columns', '*') is true; has('columns', 'COUNT( * )') raises. *)
Example C97_special : sel_has (demoW BSql) select97 (lit "columns") (vs "*") = Ok true /\
  sel_has (demoW BSql) select97 (lit "columns") (vs "COUNT(*)") = Err EException /\ plain (lit "COUNT") /\
  sel_has (demoW BSql) select97 (lit "where") (vs "(") = Err EException /\ sel_has (demoW BSql) select97 (lit "where") (vs "\") = Err EException /\
  sel_has (demoW BSql) select97 (lit "order_by") (vs "(") = Ok false.
Proof.
  repeat (split; [vm_compute; reflexivity|]). split; [|repeat split; vm_compute; reflexivity].
  repeat (constructor; [vm_compute; intuition discriminate|]). constructor.
Qed.
(** has('select_options', 'sql_\w+') does not find SQL_CACHE, but sql_(n|c).* does. *)
Example C97_options_ex : sel_has (demoW BSql) select97 (lit "select_options") (vs "sql_\w+") = Ok false /\
  sel_has (demoW BSql) select97 (lit "select_options") (vs "sql_(n|c).*") = Ok true /\
  asked_word (demo BSql) (vs "sql_\w+") (lit "sql_\w+") /\ exists p, supper (demo BSql) (lit "sql_\w+") = one_word p.
Proof.
  split; [vm_compute; reflexivity|]. split; [vm_compute; reflexivity|]. split; [split; vm_compute; reflexivity|].
  exists (fold_right (fun c p => Then (Sym c) p) (Once OtherSym) (lit "SQL_")). vm_compute. reflexivity.
Qed.
