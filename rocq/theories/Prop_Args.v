(** Properties C18-C22: how arguments are read, and what becomes of the conditions
    given.  Specification: SpecArgs.v. *)
From Coq Require Import Permutation Sorted.
From Verif Require Import Base NumFmt Value Eq Render ParseArgs Build Queries History SpecArgs PfArgs PfDedupe Demo.
Open Scope N_scope.

(** C20.  The parser with the two settings used by the library. *)
Theorem C20_pair_arguments : forall W args kwds, keys_ok args kwds ->
  (forall ps, parse_args W pair_opts args kwds = Ok (map (fun p => [fst p; snd p]) ps) <-> pair_args args kwds ps) /\
  ((forall ps, ~ pair_args args kwds ps) -> parse_args W pair_opts args kwds = Err EInvalidArgument) /\
  (forall bs, parse_args W pair_opts args kwds = Ok bs -> exists ps, bs = map (fun p => [fst p; snd p]) ps).
Proof. exact pair_contract_iff. Qed.
Print Assumptions C20_pair_arguments.
Theorem C20_alias_arguments : forall W args kwds, keys_ok args kwds ->
  (forall ps, parse_args W alias_opts args kwds = Ok (map (fun p => [fst p; snd p]) ps) <-> alias_args args kwds ps) /\
  ((forall ps, ~ alias_args args kwds ps) -> parse_args W alias_opts args kwds = Err EInvalidArgument) /\
  (forall bs, parse_args W alias_opts args kwds = Ok bs -> exists ps, bs = map (fun p => [fst p; snd p]) ps).
Proof. exact alias_contract_iff. Qed.
Print Assumptions C20_alias_arguments.
(** where(('b', 1), ('a', 2), d=4, c=3): positional items in order, keywords sorted. *)
Example C20_example : keys_ok [VSeq KTuple [vs "b"; VInt 1]; VSeq KList [vs "a"; VInt 2]] [(lit "d", VInt 4); (lit "c", VInt 3)] /\
  pair_args [VSeq KTuple [vs "b"; VInt 1]; VSeq KList [vs "a"; VInt 2]] [(lit "d", VInt 4); (lit "c", VInt 3)]
    ([(vs "b", VInt 1); (vs "a", VInt 2)] ++ [(vs "c", VInt 3); (vs "d", VInt 4)]).
Proof.
  split.
  - split; [|intros; discriminate]. repeat constructor; simpl; intros H; try (destruct H as [H|[]]); try discriminate; destruct H.
  - apply pa_items.
    + discriminate.
    + intros a b H S. injection H as <- <-. eapply S. right. reflexivity.
    + constructor; [exists [vs "b"; VInt 1]; split; [right; reflexivity|constructor]|].
      constructor; [exists [vs "a"; VInt 2]; split; [left; reflexivity|constructor]|constructor].
    + split; [apply perm_swap|]. repeat constructor.
Qed.

(** C22 *)
Theorem C22_order_irrelevant : forall W a k a' k', reordered a k a' k' ->
  (forall q c, In c [SColumns; SFrom; SOn; SWhere; SHaving; SGroupBy; SOrderBy] -> sel_step W q (c a k) = sel_step W q (c a' k')) /\
  (forall q, ins_step W q (IValues a k) = ins_step W q (IValues a' k')) /\
  (forall q c, In c [USet; UWhere; UOn] -> upd_step W q (c a k) = upd_step W q (c a' k')) /\
  (forall q c, In c [DFrom; DWhere; DOn] -> del_step W q (c a k) = del_step W q (c a' k')) /\
  mk_Q W a k = mk_Q W a' k' /\ mk_Not W a k = mk_Not W a' k'.
Proof. exact order_irrelevant. Qed.
Print Assumptions C22_order_irrelevant.
Theorem C22_on_duplicate_key_update : forall W q a k k', NoDup (map fst k) -> Permutation k k' ->
  ins_step W q (IOnDup a k) = ins_step W q (IOnDup a k').
Proof. exact ondup_reordered. Qed.
Print Assumptions C22_on_duplicate_key_update.
Example C22_example : reordered [] [(lit "b", VInt 1); (lit "a", VInt 2)] [] [(lit "a", VInt 2); (lit "b", VInt 1)] /\
  s_where (fst (sel_step (demoW BSql) empty_select (SWhere [] [(lit "b", VInt 1); (lit "a", VInt 2)])))
  = [VCond KWhere (vs "a") REq (VInt 2); VCond KWhere (vs "b") REq (VInt 1)].
Proof.
  split; [|reflexivity]. constructor; [|apply perm_swap].
  repeat constructor; simpl; intros H; try (destruct H as [H|[]]); try discriminate; destruct H.
Qed.

(** C21.  False: the one-element tuples in where(('a',), ('b',)) are completed
    with None, giving two IS NULL conditions. *)
Theorem C21_short_items_refuted : exists args ps,
  (forall a, In a args -> exists x, group a [x]) /\
  conds_where (demoW BSql) KWhere [] args [] = (ps, Ok tt) /\
  text (demo BSql) (VConds ps) = Ok (lit """a"" IS NULL AND ""b"" IS NULL").
Proof.
  exists [VSeq KTuple [vs "a"]; VSeq KTuple [vs "b"]],
    [VCond KWhere (vs "a") RIs VNone; VCond KWhere (vs "b") RIs VNone].
  split; [|split; vm_compute; reflexivity].
  intros a [<-|[<-|[]]]; eexists; right; reflexivity.
Qed.
Print Assumptions C21_short_items_refuted.
(** A missing second entry is noticed when the item is not a list or tuple.
    Missing: one-element (and empty) lists and tuples. *)
Theorem C21_scalar_items_partial : forall W k ps args kwds, keys_ok args kwds -> has_scalar_item args ->
  Exists (fun v => ~ is_sql v = true) args ->
  conds_where W k ps args kwds = (ps, Err EInvalidArgument) /\
  values_set W ps args kwds = (ps, Err EInvalidArgument).
Proof. exact scalar_items_rejected. Qed.
Print Assumptions C21_scalar_items_partial.
Example C21_example : has_scalar_item [vs "a"] /\ has_scalar_item [VSeq KList [VSeq KTuple [vs "a"; VInt 1]; vs "b"]].
Proof.
  split.
  - right. left. eexists. split; [reflexivity|]. split; [intros l [H|H]; discriminate|intros; discriminate].
  - left. do 3 eexists. split; [reflexivity|]. split; [left; reflexivity|]. split; [right; left; reflexivity|].
    intros l [H|H]; discriminate.
Qed.

(** C18.  False for mixtures: where({'a': 1}, b=2) forgets b, where(Q(a=1), b=2) too. *)
Theorem C18_conditions_lost_refuted :
  conds_where (demoW BSql) KWhere [] [VDict [(vs "a", VInt 1)]] [(lit "b", VInt 2)]
    = ([VCond KWhere (vs "a") REq (VInt 1)], Ok tt) /\
  (exists q, mk_Q (demoW BSql) [] [(lit "a", VInt 1)] = Ok q /\
     conds_where (demoW BSql) KWhere [] [q] [(lit "b", VInt 2)] = ([q], Ok tt)).
Proof. split; [reflexivity|]. eexists. split; reflexivity. Qed.
Print Assumptions C18_conditions_lost_refuted.
(** [asked] is read off the arguments (SpecArgs.v).  The condition of every pair is
    in the list afterwards, or one that Python's == calls equal.
    Every positional condition is kept; keywords are kept but beside a dict or Q objects. *)
Theorem C18_pairs_kept_partial : forall W k ps args kwds ps' asked, keys_ok args kwds ->
  (args = [] \/ forallb is_conds args = false) ->
  pair_args args kwds asked -> conds_where W k ps args kwds = (ps', Ok tt) ->
  forall c v, In (c, v) asked -> exists x, mk_condition k c v = Ok x /\
    exists p, In p ps' /\ (p = x \/ w_eq W p x = Ok true).
Proof. exact where_keeps_pairs. Qed.
Print Assumptions C18_pairs_kept_partial.
Theorem C18_objects_kept_partial : forall W k ps args kwds ps', args <> [] ->
  (forallb is_conds args = true \/ exists a, args = [a] /\ is_sql a = true) ->
  conds_where W k ps args kwds = (ps', Ok tt) ->
  forall a, In a args -> exists p, In p ps' /\ (p = a \/ w_eq W p a = Ok true).
Proof. exact where_keeps_objects. Qed.
Print Assumptions C18_objects_kept_partial.
(** There, they are not read at all: others do the same. *)
Theorem C18_keywords_lost_exactly : forall W k ps args kwds kwds',
  (exists items, args = [VDict items]) \/ (args <> [] /\ forallb is_conds args = true /\ kwds <> [] /\ kwds' <> []) ->
  conds_where W k ps args kwds = conds_where W k ps args kwds'.
Proof. exact where_loses. Qed.
Print Assumptions C18_keywords_lost_exactly.
(** Every condition of the list is in the text. *)
Theorem C18_clause_shows_all : forall E ps t, text E (VConds ps) = Ok t ->
  exists ts, Forall2 (fun p u => text E p = Ok u) ps ts /\ t = sjoin (lit " AND ") ts.
Proof. exact conds_parts. Qed.
Print Assumptions C18_clause_shows_all.
Example C18_example : conds_where (demoW BSql) KWhere [] [VSeq KList [VSeq KTuple [vs "b"; VInt 1]; VSeq KTuple [vs "a"; VInt 2]]] [(lit "c", VNone)]
  = ([VCond KWhere (vs "b") REq (VInt 1); VCond KWhere (vs "a") REq (VInt 2); VCond KWhere (vs "c") RIs VNone], Ok tt).
Proof. reflexivity. Qed.

(** C19.  False: where(a=1, ...) then where(a=True) on PostgreSQL. *)
Theorem C19_duplicates_refuted : exists ps x,
  conds_where (demoW BPostgres) KWhere ps [vs "a"; VBool true] [] = (ps, Ok tt) /\
  conds_where (demoW BPostgres) KWhere [] [vs "a"; VBool true] [] = ([x], Ok tt) /\
  text (demo BPostgres) x = Ok (lit """a"" = true") /\
  text (demo BPostgres) (VConds ps) = Ok (lit """a"" = 1").
Proof.
  exists [VCond KWhere (vs "a") REq (VInt 1)], (VCond KWhere (vs "a") REq (VBool true)).
  repeat split; vm_compute; reflexivity.
Qed.
Print Assumptions C19_duplicates_refuted.
(** Conditions on text columns with plain data (SpecArgs.v), built by any calls
    where(c, v): dropped only if the very same condition is there.
    Missing: bool, float, Decimal and SQL objects. *)
Theorem C19_duplicates_partial : forall E l c v, Forall plain_call l -> plain_call (VStr c, v) ->
  let ps := where_calls E [] l in
  conds_where (pure_world E) KWhere ps [VStr c; v] [] = (ps, Ok tt) ->
  exists p, In p ps /\ conds_where (pure_world E) KWhere [] [VStr c; v] [] = ([p], Ok tt).
Proof. exact dedupe_plain. Qed.
Print Assumptions C19_duplicates_partial.
Example C19_example : plain_call (vs "a", VSeq KTuple [VInt 1; vs "x"]) /\
  let ps := where_calls (demo BSql) [] [(vs "a", VSeq KList [VInt 1; vs "x"]); (vs "b", VNone)] in
  conds_where (demoW BSql) KWhere ps [vs "a"; VSeq KTuple [VInt 1; vs "x"]] [] = (ps, Ok tt).
Proof.
  split; [|vm_compute; reflexivity]. exists (lit "a"). eexists. split; [reflexivity|]. left.
  constructor; [right; now left|repeat constructor].
Qed.
