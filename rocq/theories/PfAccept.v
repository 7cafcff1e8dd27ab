(** Proofs about the arguments the builder calls accept: C65, C66. *)
From Coq Require Import Lia.
From Verif Require Import Base BaseFacts NumFmt Value Backend Eq Render RenderFacts ParseArgs Build Queries History
  SpecHistory SpecArgs SpecRelations SpecBackends SpecErrors SpecAccept PfArgs PfErrors.
Open Scope N_scope.

(** ** Errors of comparisons *)
Definition from_eq (W : world) (e : exn) : Prop := exists x y, w_eq W x y = Err e.
Definition errs {A B} (W : world) (f : A -> B -> res bool) : Prop := forall x y e, f x y = Err e -> from_eq W e.
Lemma errs_eq : forall W, errs W (w_eq W).
Proof. intros W x y e H. exists x, y. exact H. Qed.
Lemma rand_err : forall x y e, rand x y = Err e -> x = Err e \/ y = Err e.
Proof. intros [[]|x] y e H; cbn in H; auto; discriminate. Qed.
Lemma errs_pair : forall A B W (f : A -> B -> res bool), errs W f -> errs W (pair_eq f).
Proof. intros A B W f F [a b] [c d] e H. apply rand_err in H as [H|H]; exact (F _ _ _ H). Qed.
Lemma errs_all2 : forall A B W (f : A -> B -> res bool), errs W f -> errs W (all2 f).
Proof.
  intros A B W f F l. induction l as [|x l IH]; intros [|y m] e H; try discriminate. cbn [all2] in H.
  destruct (f x y) as [[]|e'] eqn:X; try discriminate; [exact (IH _ _ H)|]. injection H as <-. exact (F _ _ _ X).
Qed.
Lemma errs_list : forall A B W (f : A -> B -> res bool), errs W f -> errs W (list_eq f).
Proof. intros A B W f F l m e H. unfold list_eq in H. destruct (Nat.eqb _ _); [|discriminate]. exact (errs_all2 _ _ _ _ F _ _ _ H). Qed.
Lemma errs_join : forall W, errs W (join_eq (w_eq W)).
Proof.
  intros W [t n a o] [t' n' a' o'] e H. cbn [join_eq] in H. apply rand_err in H as [H|H]; [discriminate|].
  apply rand_err in H as [H|H]; [apply rand_err in H as [H|H]; exact (errs_eq W _ _ _ H)|exact (errs_list _ _ _ _ (errs_eq W) _ _ _ H)].
Qed.
Lemma errs_table : forall W, errs W (table_eq (w_eq W)).
Proof.
  intros W [n a js] [n' a' js'] e H. cbn [table_eq] in H. apply rand_err in H as [H|H]; [exact (errs_eq W _ _ _ H)|].
  apply rand_err in H as [H|H]; [exact (errs_eq W _ _ _ H)|exact (errs_list _ _ _ _ (errs_join W) _ _ _ H)].
Qed.
Lemma append_err : forall A W (f : A -> A -> res bool) ps x e, errs W f -> append_unique f ps x = Err e -> from_eq W e.
Proof.
  intros A W f ps x e F. unfold append_unique.
  assert (G : forall l, anyM (fun p => f p x) l = Err e -> from_eq W e).
  { induction l as [|p l IH]; cbn [anyM]; [discriminate|]. destruct (f p x) as [[]|e'] eqn:X; cbn; [discriminate|exact IH|].
    intros H. injection H as ->. exact (F _ _ _ X). }
  destruct (anyM (fun p => f p x) ps) as [b|e2] eqn:M; cbn [bind]; [discriminate|]. intros H. injection H as ->. exact (G _ M).
Qed.

(** ** A loop over items *)
Lemma judged_loop : forall S W (mk : S -> val * val -> res S) (P : val * val -> Prop),
  (forall s p, (exists s', mk s p = Ok s' /\ P p) \/ (mk s p = Err EInvalidArgument /\ ~ P p) \/ exists e, mk s p = Err e /\ from_eq W e) ->
  forall ps s, judged W (Forall P ps) (snd (foldE (fun s p => commit s (mk s p)) s ps)).
Proof.
  intros S W mk P H. induction ps as [|p ps IH]; intros s; cbn [foldE]; [left; now split|].
  destruct (H s p) as [[s' [-> G]]|[[-> G]|[e [-> [x [y G]]]]]]; cbn [commit snd].
  - destruct (IH s') as [[-> F]|[[-> F]|R]]; [left; split; [reflexivity|now constructor]|right; left; split; [reflexivity|]|right; right; exact R].
    intros F'. apply F. now inversion F'.
  - right. left. split; [reflexivity|]. intros F. apply G. now inversion F.
  - right. right. exists x, y, e. split; [exact G|reflexivity].
Qed.

(** ** The single items *)
Ltac cases v := destruct v as [ | | | | | | | | |[] ?| | | | | | | | | | | | | | | | | | | | | ].
Ltac pick := first [reflexivity|repeat eexists; reflexivity|left; pick|right; pick].
Lemma condition_made : forall k c v, (exists x, mk_condition k c v = Ok x /\ condition_item (c, v)) \/
  (mk_condition k c v = Err EInvalidArgument /\ ~ condition_item (c, v)).
Proof.
  intros k c v. unfold condition_item, is_text, is_number, is_boolean, is_temporal, is_sql_object, mk_condition. cbn [fst snd].
  destruct (check_type [TStr] c) eqn:C; cbn [negb].
  2:{ right. split; [reflexivity|]. intros [[[s ->]|S] _]; [discriminate C|]. destruct c; discriminate. }
  assert (C' : (exists s, c = VStr s) \/ is_sql c = true) by (cases c; try discriminate C; eauto).
  destruct (check_type cond_value_types v) eqn:V; cbn [negb].
  - left. destruct v as [ | | | | | | | | |[] l| | | |x|x| | | | | | | | | | | | | | | | ]; try discriminate V;
      try (eexists; split; [reflexivity|]; split; [exact C'|]; right; right; right; right; right; left; do 2 eexists; split; [|reflexivity]; cbn; tauto).
    all: try (cases x; (eexists; split; [reflexivity|]; split; [exact C'|]; do 6 right; reflexivity); fail).
    all: cbn; eexists; split; [reflexivity|]; split; [exact C'|]; pick.
  - right. split; [reflexivity|]. clear C'. intros [_ H].
    repeat match goal with H : _ \/ _ |- _ => destruct H as [H|H] end;
    repeat match goal with H : exists _, _ |- _ => destruct H as [? H] end; subst; try discriminate.
    all: try (match type of H with _ /\ _ => idtac end; destruct H as [I ->]; cbn [In] in I; repeat (destruct I as [<-|I]; [discriminate V|]); destruct I).
    all: cases v; discriminate.
Qed.
Lemma value_made : forall c v, (exists x, mk_value c v = Ok x /\ value_item (c, v)) \/
  (mk_value c v = Err EInvalidArgument /\ ~ value_item (c, v)).
Proof.
  intros c v. unfold value_item, is_text, is_number, is_boolean, is_temporal, is_sql_object, mk_value. cbn [fst snd].
  destruct (check_type [TStr] c) eqn:C; cbn [negb].
  2:{ right. split; [reflexivity|]. intros [[[s ->]|S] _]; [discriminate C|]. destruct c; discriminate. }
  assert (C' : (exists s, c = VStr s) \/ is_sql c = true) by (cases c; try discriminate C; eauto).
  destruct (check_type value_types v) eqn:V; cbn [negb].
  - left. eexists. split; [reflexivity|]. split; [exact C'|]. cases v; try discriminate V; pick.
  - right. split; [reflexivity|]. clear C'. intros [_ H].
    repeat match goal with H : _ \/ _ |- _ => destruct H as [H|H] end;
    repeat match goal with H : exists _, _ |- _ => destruct H as [? H] end; subst; try discriminate. destruct v; discriminate.
Qed.
Lemma column_made : forall c v, (exists x, mk_column c v = Ok x /\ column_ok (c, v)) \/
  (mk_column c v = Err EInvalidArgument /\ ~ column_ok (c, v)).
Proof.
  intros c v. unfold column_ok, name_arg, alias_arg, mk_column. cbn [fst snd].
  destruct (check_type [TStr; TInt] c) eqn:C; cbn [negb].
  2:{ right. split; [reflexivity|]. intros [[[[s ->]|[n ->]]|S] _]; try discriminate C. destruct c; discriminate. }
  assert (C' : ((exists s, c = VStr s) \/ (exists n, c = VInt n)) \/ is_sql c = true).
  { cases c; try discriminate C; eauto. }
  destruct (check_type [TStr; TNone] v) eqn:V; cbn [negb].
  - left. eexists. split; [reflexivity|]. split; [exact C'|]. cases v; try discriminate V; eauto.
  - right. split; [reflexivity|]. intros [_ [[[s ->]| ->]|S]]; try discriminate V. destruct v; discriminate.
Qed.
Lemma table_made : forall c v, (exists x, mk_table c v = Ok x /\ table_item (c, v)) \/
  (mk_table c v = Err EInvalidArgument /\ ~ table_item (c, v)).
Proof.
  intros c v. unfold table_item, is_text, is_sql_object, alias_arg, mk_table. cbn [fst snd].
  destruct (check_type [TStr] c) eqn:C; cbn [negb].
  2:{ right. split; [reflexivity|]. intros [[[s ->]|S] _]; try discriminate C. destruct c; discriminate. }
  assert (C' : (exists s, c = VStr s) \/ is_sql c = true) by (cases c; try discriminate C; eauto).
  destruct (check_type [TNone; TStr] v) eqn:V; cbn [negb].
  - left. eexists. split; [reflexivity|]. split; [exact C'|]. cases v; try discriminate V; eauto.
  - right. split; [reflexivity|]. intros [_ [[[s ->]| ->]|S]]; try discriminate V. destruct v; discriminate.
Qed.
(** Making a part and adding it. *)
Lemma made_added : forall X S W (m : res X) (P : Prop) (add : X -> res S),
  (exists x, m = Ok x /\ P) \/ (m = Err EInvalidArgument /\ ~ P) ->
  (forall x e, add x = Err e -> from_eq W e) ->
  (exists s', (do x <- m; add x) = Ok s' /\ P) \/ ((do x <- m; add x) = Err EInvalidArgument /\ ~ P) \/
  exists e, (do x <- m; add x) = Err e /\ from_eq W e.
Proof.
  intros X S W m P add [[x [-> p]]|[-> p]] F; cbn [bind]; [|right; left; now split].
  destruct (add x) as [s'|e] eqn:A; [left; eauto|right; right; exists e; eauto].
Qed.

(** ** The calls *)
Lemma parsed_pairs : forall W a k, keys_ok a k ->
  (forall ps, pair_args a k ps -> parse_args W pair_opts a k = Ok (batches ps)) /\
  ((forall ps, ~ pair_args a k ps) -> parse_args W pair_opts a k = Err EInvalidArgument).
Proof. intros W a k K. destruct (pair_contract_iff W a k K) as [A [B _]]. split; [intros ps; apply A|exact B]. Qed.
Lemma parsed_names : forall W a k, keys_ok a k ->
  (forall ps, alias_args a k ps -> parse_args W alias_opts a k = Ok (batches ps)) /\
  ((forall ps, ~ alias_args a k ps) -> parse_args W alias_opts a k = Err EInvalidArgument).
Proof. intros W a k K. destruct (alias_contract_iff W a k K) as [A [B _]]. split; [intros ps; apply A|exact B]. Qed.
Lemma where_plainly : forall W c s a k, some_data a -> conds_where W c s a k = match parse_args W pair_opts a k with
                    | Err e => (s, Err e)
                    | Ok items => foldE (fun s it => let (c0, v) := nth2 it in commit s (do x <- mk_condition c c0 v; append_unique (w_eq W) s x)) s items
                    end.
Proof.
  intros W c s a k D. unfold conds_where. destruct D as [->|[x [I X]]]; [destruct k; reflexivity|].
  assert (F : forallb is_conds a = false).
  { apply not_true_is_false. intros F. rewrite forallb_forall in F. specialize (F x I). apply conds_sql in F. congruence. }
  rewrite F, andb_false_r. destruct a as [|y [|z a]]; try reflexivity. destruct k; [|reflexivity].
  destruct I as [->|[]]. rewrite X. reflexivity.
Qed.
Lemma set_plainly : forall W s a k, some_data a -> values_set W s a k = match parse_args W pair_opts a k with
                    | Err e => (s, Err e)
                    | Ok items => foldE (fun s it => let (c0, v) := nth2 it in commit s (do x <- mk_value c0 v; append_unique (w_eq W) s x)) s items
                    end.
Proof.
  intros W s a k D. unfold values_set. destruct D as [->|[x [I X]]]; [destruct k; reflexivity|].
  destruct a as [|y [|z a]]; try reflexivity. destruct k; [|reflexivity]. destruct I as [->|[]]. rewrite X. reflexivity.
Qed.
Lemma where_judged : forall W c s a k, keys_ok a k -> some_data a ->
  judged_call W (pair_args a k) condition_item (snd (conds_where W c s a k)).
Proof.
  intros W c s a k K D. rewrite (where_plainly _ _ _ _ _ D). destruct (parsed_pairs W a k K) as [A B]. split.
  - intros ps P. rewrite (A ps P), (foldE_batches _ (fun s c0 v => commit s (do x <- mk_condition c c0 v; append_unique (w_eq W) s x))).
    apply (judged_loop _ W (fun s p => do x <- mk_condition c (fst p) (snd p); append_unique (w_eq W) s x)).
    intros s0 [c0 v]. apply made_added; [apply condition_made|]. intros x e. apply append_err, errs_eq.
  - intros N. now rewrite (B N).
Qed.
Lemma set_judged : forall W s a k, keys_ok a k -> some_data a ->
  judged_call W (pair_args a k) value_item (snd (values_set W s a k)).
Proof.
  intros W s a k K D. rewrite (set_plainly _ _ _ _ D). destruct (parsed_pairs W a k K) as [A B]. split.
  - intros ps P. rewrite (A ps P), (foldE_batches _ (fun s c0 v => commit s (do x <- mk_value c0 v; append_unique (w_eq W) s x))).
    apply (judged_loop _ W (fun s p => do x <- mk_value (fst p) (snd p); append_unique (w_eq W) s x)).
    intros s0 [c0 v]. apply made_added; [apply value_made|]. intros x e. apply append_err, errs_eq.
  - intros N. now rewrite (B N).
Qed.
Lemma columns_judged : forall W s a k, keys_ok a k -> judged_call W (alias_args a k) column_ok (snd (columns_add W s a k)).
Proof.
  intros W s a k K. unfold columns_add. destruct (parsed_names W a k K) as [A B]. split.
  - intros ps P. rewrite (A ps P), (foldE_batches _ (fun s c0 v => commit s (do x <- mk_column c0 v; append_unique (pair_eq (w_eq W)) s x))).
    apply (judged_loop _ W (fun s p => do x <- mk_column (fst p) (snd p); append_unique (pair_eq (w_eq W)) s x)).
    intros s0 [c0 v]. apply made_added; [apply column_made|]. intros x e. apply append_err, errs_pair, errs_eq.
  - intros N. now rewrite (B N).
Qed.
Lemma tables_judged : forall W s a k, keys_ok (filter truthy a) k ->
  judged_call W (alias_args (filter truthy a) k) table_item (snd (tables_set W s a k)).
Proof.
  intros W s a k K. unfold tables_set. destruct (parsed_names W _ k K) as [A B]. split.
  - intros ps P. rewrite (A ps P), (foldE_batches _ (fun s c0 v => commit s (do x <- mk_table c0 v; append_unique (table_eq (w_eq W)) s (MkTable (fst x) (snd x) [])))).
    apply (judged_loop _ W (fun s p => do x <- mk_table (fst p) (snd p); append_unique (table_eq (w_eq W)) s (MkTable (fst x) (snd x) []))).
    intros s0 [c0 v]. apply made_added; [apply table_made|]. intros x e. apply append_err, errs_table.
  - intros N. now rewrite (B N).
Qed.
Lemma on_judged : forall W ts a k, keys_ok a k -> some_data a -> joined ts ->
  judged_call W (pair_args a k) condition_item (snd (tables_on W ts a k)).
Proof.
  intros W ts a k K D [ts0 [n [al [js [[ty n' al' ons] ->]]]]]. rewrite on_rebuilt. apply where_judged; assumption.
Qed.
Lemma select_judged : forall W q op, with_items op -> unsorted op -> ready_sel q op ->
  judged_call W (sel_items op) (item_sel op) (snd (sel_step W q op)).
Proof.
  intros W q op K U R. destruct op; try contradiction; cbn [sel_step sel_items item_sel with_items ready_sel] in *; unfold lift1; cbn [snd].
  - apply columns_judged, K.
  - apply tables_judged, K.
  - apply on_judged; [apply K|apply R|apply R].
  - apply where_judged; [apply K|exact R].
  - apply where_judged; [apply K|exact R].
Qed.
Lemma update_judged : forall W q op, with_items_upd op -> ready_upd q op ->
  judged_call W (upd_items op) (item_upd op) (snd (upd_step W q op)).
Proof.
  intros W [ig ts vs wh al] op K R. destruct op; try contradiction; cbn [upd_step upd_items item_upd with_items_upd ready_upd u_tabs] in *; unfold lift1; cbn [snd].
  - apply tables_judged, K.
  - apply set_judged; [apply K|exact R].
  - apply where_judged; [apply K|exact R].
  - apply on_judged; [apply K|apply R|apply R].
Qed.
Lemma delete_judged : forall W q op, with_items_del op -> ready_del q op ->
  judged_call W (del_items op) (item_del op) (snd (del_step W q op)).
Proof.
  intros W [ig ts rs wh al] op K R. destruct op; try contradiction; cbn [del_step del_items item_del with_items_del ready_del d_refs] in *; unfold lift1; cbn [snd].
  - apply tables_judged, K.
  - apply tables_judged, K.
  - apply where_judged; [apply K|exact R].
  - apply on_judged; [apply K|apply R|apply R].
Qed.
Lemma insert_judged : forall W q a k, keys_ok a k -> some_data a ->
  judged_call W (pair_args a k) value_item (snd (ins_step W q (IValues a k))).
Proof.
  intros W [rp ig ts rows dup cf upd] a k K D. cbn [ins_step]. unfold lift1, rows_add. cbn [snd].
  pose proof (set_judged W [] a k K D) as J. destruct (values_set W [] a k) as [ps [[]|e]]; exact J.
Qed.
Lemma duplicate_judged : forall W q a k, e_be (w_env W) = BMySql -> keys_ok a k -> some_data a ->
  judged_call W (pair_args a k) value_item (snd (ins_step W q (IOnDup a k))).
Proof.
  intros W [rp ig ts rows dup cf upd] a k B K D. cbn [ins_step]. rewrite B.
  cbn [supports_on_duplicate_key_update supports_on_conflict_do_update supports_replace_into].
  pose proof (set_judged W dup a k K D) as J. destruct (values_set W dup a k) as [ps [[]|e]]; exact J.
Qed.
Lemma named_table : forall W t, keys_ok (filter truthy [t]) [] ->
  (forall q, judged_call W (alias_args (filter truthy [t]) []) table_item (snd (ins_step W q (IInto t)))) /\
  (forall q, judged_call W (alias_args (filter truthy [t]) []) table_item (snd (upd_step W q (UTable t)))).
Proof.
  intros W t K. split; [intros [rp ig ts rows dup cf upd]|intros [ig ts vs wh al]]; cbn [ins_step upd_step]; unfold lift1; cbn [snd]; apply tables_judged, K.
Qed.

(** ** order_by and group_by *)
Lemma sort_made : forall E v, (exists d, mk_sort E v = Ok d /\ direction (supper E) v d) \/
  ((mk_sort E v = Err EInvalidArgument \/ (mk_sort E v = Err EAttributeError /\ ((exists n, v = VInt n) \/ is_sql_object v))) /\
   forall d, ~ direction (supper E) v d).
Proof.
  intros E v. unfold mk_sort, direction, is_sql_object. destruct (check_type [TStr; TInt; TNone] v) eqn:C; cbn [negb].
  2:{ right. split; [left; reflexivity|]. intros d [[-> _]|[s [-> _]]]; discriminate C. }
  assert (G : forall d, (v = VNone /\ d = Asc) \/ (exists s, v = VStr s /\ ((supper E s = lit "ASC" /\ d = Asc) \/ (supper E s = lit "DESC" /\ d = Desc))) ->
              v = VNone \/ exists s, v = VStr s) by (intros d [[-> _]|[s [-> _]]]; eauto).
  cases v; try discriminate C;
    try (right; split; [right; split; [reflexivity|]; eauto|intros d D; destruct (G d D) as [X|[? X]]; discriminate X]).
  - left. exists Asc. split; [reflexivity|]. left. now split.
  - destruct (seqb (supper E s) (lit "ASC")) eqn:A.
    + left. exists Asc. split; [reflexivity|]. right. exists s. split; [reflexivity|]. left. split; [|reflexivity]. now apply seqb_eq.
    + destruct (seqb (supper E s) (lit "DESC")) eqn:D.
      * left. exists Desc. split; [reflexivity|]. right. exists s. split; [reflexivity|]. right. split; [|reflexivity]. now apply seqb_eq.
      * right. split; [left; reflexivity|]. intros d [[X _]|[s' [X [[Y _]|[Y _]]]]]; [discriminate X| |]; injection X as <-; apply seqb_eq in Y; congruence.
Qed.
Lemma updated : forall W os c sort,
  (exists o, order_update W os c sort = Ok o /\ (o = None \/ exists c' st' d, o = Some st' /\ w_eq W c' c = Ok true /\ mk_sort (w_env W) sort = Ok d)) \/
  (exists e, order_update W os c sort = Err e /\ (from_eq W e \/ mk_sort (w_env W) sort = Err e)).
Proof.
  intros W os c sort. induction os as [|[c' s] os IH]; cbn [order_update]; [left; exists None; auto|].
  destruct (w_eq W c' c) as [[]|e] eqn:X.
  - destruct (mk_sort (w_env W) sort) as [d|e]; cbn [bind]; [left|right].
    + eexists. split; [reflexivity|]. right. do 3 eexists. split; [reflexivity|]. split; [exact X|reflexivity].
    + exists e. auto.
  - destruct IH as [[o [-> [-> |[c2 [st' [d [-> [H M]]]]]]]]|[e [-> H]]]; cbn [bind].
    + left. exists None. auto.
    + left. eexists. split; [reflexivity|]. right. do 3 eexists. split; [reflexivity|]. split; [exact H|exact M].
    + right. exists e. auto.
  - right. exists e. split; [reflexivity|]. left. exists c', c. exact X.
Qed.
Lemma order_made : forall W s p,
  (exists s', order_one W s (fst p) (snd p) = Ok s' /\ sort_taken W p) \/
  (exists e, order_one W s (fst p) (snd p) = Err e /\
    (e = EInvalidArgument \/ (e = EAttributeError /\ ((exists n, snd p = VInt n) \/ is_sql_object (snd p)))) /\ ~ sort_item (supper (w_env W)) p) \/
  (exists e, order_one W s (fst p) (snd p) = Err e /\ from_eq W e).
Proof.
  intros W s [c v]. unfold order_one, sort_taken, sort_item. cbn [fst snd].
  assert (B : forall e, mk_sort (w_env W) v = Err e ->
    (e = EInvalidArgument \/ (e = EAttributeError /\ ((exists n, v = VInt n) \/ is_sql_object v))) /\
    ~ ((name_arg c \/ is_sql_object c) /\ exists d, direction (supper (w_env W)) v d)).
  { intros e M. destruct (sort_made (w_env W) v) as [[d [D _]]|[D N]]; [congruence|]. split.
    - destruct D as [D|[D X]]; rewrite D in M; injection M as <-; [left; reflexivity|right; split; [reflexivity|exact X]].
    - intros [_ [d X]]. exact (N d X). }
  destruct (updated W s c v) as [[o [-> [-> |[c' [st' [d [-> [X M]]]]]]]]|[e [-> [H|H]]]]; cbn [bind].
  - destruct (check_type [TStr; TInt] c) eqn:C; cbn [negb].
    + assert (C' : name_arg c \/ is_sql_object c).
      { unfold name_arg, is_sql_object. cases c; try discriminate C; eauto. }
      destruct (mk_sort (w_env W) v) as [d|e] eqn:M; cbn [bind].
      * left. eexists. split; [reflexivity|]. split; [tauto|].
        destruct (sort_made (w_env W) v) as [[d' [D G]]|[[D|[D _]] _]]; [eauto|congruence|congruence].
      * right. left. exists e. split; [reflexivity|]. exact (B e eq_refl).
    + right. left. exists EInvalidArgument. split; [reflexivity|]. split; [left; reflexivity|].
      intros [[[[t ->]|[n ->]]|S] _]; try discriminate C. unfold is_sql_object in S. cases c; discriminate.
  - left. exists st'. split; [reflexivity|]. split; [right; right; exists c'; exact X|].
    destruct (sort_made (w_env W) v) as [[d' [D G]]|[[D|[D _]] _]]; [eauto|congruence|congruence].
  - right. right. exists e. split; [reflexivity|exact H].
  - right. left. exists e. split; [reflexivity|]. exact (B e H).
Qed.
Lemma sort_loop : forall W ps s, sort_judged W ps (snd (foldE (fun s p => commit s (order_one W s (fst p) (snd p))) s ps)).
Proof.
  intros W. induction ps as [|p ps IH]; intros s; cbn [foldE]; [left; now split|].
  destruct (order_made W s p) as [[s' [-> G]]|[[e [-> [D G]]]|[e [-> [x [y G]]]]]]; cbn [commit snd].
  - destruct (IH s') as [[-> F]|[[D F]|R]]; [left; split; [reflexivity|now constructor]|right; left|right; right; exact R].
    split; [|intros F'; apply F; now inversion F'].
    destruct D as [-> |[-> [p' [I X]]]]; [left; reflexivity|right]. split; [reflexivity|]. exists p'. split; [now right|exact X].
  - right. left. split; [|intros F; apply G; now inversion F].
    destruct D as [-> |[-> X]]; [left; reflexivity|right]. split; [reflexivity|]. exists p. split; [now left|exact X].
  - right. right. exists x, y, e. split; [exact G|reflexivity].
Qed.
Lemma sorts_judged : forall W s a k, keys_ok a k ->
  (forall ps, alias_args a k ps -> sort_judged W ps (snd (orders_add W s a k))) /\
  ((forall ps, ~ alias_args a k ps) -> snd (orders_add W s a k) = Err EInvalidArgument).
Proof.
  intros W s a k K. unfold orders_add. destruct (parsed_names W a k K) as [A B]. split.
  - intros ps P. rewrite (A ps P). change (sort_judged W ps (snd (foldE (fun s it => let (c, v) := nth2 it in commit s (order_one W s c v)) s (batches ps)))).
    rewrite (foldE_batches _ (fun s c v => commit s (order_one W s c v))). apply sort_loop.
  - intros N. now rewrite (B N).
Qed.

(** ** C66 *)
Lemma appended_loop : forall A (mk : val -> val -> res A) (eq : A -> A -> res bool) (part : val * val -> A -> Prop),
  (forall c v x, mk c v = Ok x -> part (c, v) x) ->
  forall ps s, appended part ps s (fst (foldE (fun s p => commit s (do x <- mk (fst p) (snd p); append_unique eq s x)) s ps)).
Proof.
  intros A mk eq part H. assert (Z : forall ps s, appended part ps s s).
  { intros ps s. exists [], []. split; [|split; [constructor|now rewrite app_nil_r]]. induction ps; constructor; assumption. }
  induction ps as [|[c v] ps IH]; intros s; cbn [foldE]; [apply Z|]. cbn [fst snd].
  destruct (mk c v) as [x|e] eqn:M; cbn [bind]; [|apply Z].
  assert (U : (exists e, append_unique eq s x = Err e) \/ append_unique eq s x = Ok s \/ append_unique eq s x = Ok (s ++ [x])).
  { unfold append_unique. destruct (anyM _ s) as [[]|e]; cbn [bind]; eauto. }
  destruct U as [[e ->]|[-> | ->]]; cbn [commit]; [apply Z| |].
  { destruct (IH s) as [kept [new [P [F ->]]]]. exists kept, new. split; [now constructor|now split]. }
  destruct (IH (s ++ [x])) as [kept [new [P [F ->]]]]. exists ((c, v) :: kept), (x :: new).
  split; [now constructor|]. split; [constructor; [exact (H _ _ _ M)|exact F]|]. now rewrite <- app_assoc.
Qed.
Lemma condition_parts : forall k c v x, mk_condition k c v = Ok x -> condition_for (c, v) x.
Proof.
  intros k c v x. unfold mk_condition, condition_for. cbn [fst snd]. destruct (negb _); [discriminate|]. destruct (negb (check_type cond_value_types v)); [discriminate|].
  destruct v as [ | | | | | | | | |sk l| | | | | |rk w| | | | | | | | | | | | | | | ]; unfold mk_rel;
    try (cbn [bind]; intros H; injection H as <-; do 3 eexists; split; [reflexivity|]; left; reflexivity).
  all: match goal with |- context [check_type (rel_allowed ?r) ?w] => destruct (check_type (rel_allowed r) w); cbn [bind]; [|discriminate] end.
  all: intros H; injection H as <-; do 3 eexists; split; [reflexivity|]; right.
  all: try (destruct sk; first [left; reflexivity|right; do 2 eexists; split; reflexivity]).
  all: try (left; reflexivity).
  all: cases v; left; reflexivity.
Qed.
Lemma value_parts : forall c v x, mk_value c v = Ok x -> value_for (c, v) x.
Proof. intros c v x. unfold mk_value. destruct (negb _); [discriminate|]. destruct (negb _); [discriminate|]. intros H. now injection H. Qed.
Lemma where_appends : forall W c s a k ps, keys_ok a k -> some_data a -> pair_args a k ps -> appended condition_for ps s (fst (conds_where W c s a k)).
Proof.
  intros W c s a k ps K D P. rewrite (where_plainly _ _ _ _ _ D), (proj1 (parsed_pairs W a k K) ps P).
  rewrite (foldE_batches _ (fun s c0 v => commit s (do x <- mk_condition c c0 v; append_unique (w_eq W) s x))).
  apply (appended_loop _ (mk_condition c) (w_eq W)). apply condition_parts.
Qed.
Lemma set_appends : forall W s a k ps, keys_ok a k -> some_data a -> pair_args a k ps -> appended value_for ps s (fst (values_set W s a k)).
Proof.
  intros W s a k ps K D P. rewrite (set_plainly _ _ _ _ D), (proj1 (parsed_pairs W a k K) ps P).
  rewrite (foldE_batches _ (fun s c0 v => commit s (do x <- mk_value c0 v; append_unique (w_eq W) s x))).
  apply (appended_loop _ mk_value (w_eq W)). apply value_parts.
Qed.
Lemma columns_appends : forall W s a k ps, keys_ok a k -> alias_args a k ps -> appended eq ps s (fst (columns_add W s a k)).
Proof.
  intros W s a k ps K P. unfold columns_add. rewrite (proj1 (parsed_names W a k K) ps P).
  rewrite (foldE_batches _ (fun s c0 v => commit s (do x <- mk_column c0 v; append_unique (pair_eq (w_eq W)) s x))).
  apply (appended_loop _ mk_column (pair_eq (w_eq W))). intros c v x. unfold mk_column. destruct (negb _); [discriminate|]. destruct (negb _); congruence.
Qed.
Lemma tables_appends : forall W s a k ps, keys_ok (filter truthy a) k -> alias_args (filter truthy a) k ps -> appended table_for ps s (fst (tables_set W s a k)).
Proof.
  intros W s a k ps K P. unfold tables_set. rewrite (proj1 (parsed_names W _ k K) ps P).
  rewrite (foldE_batches _ (fun s c0 v => commit s (do x <- mk_table c0 v; append_unique (table_eq (w_eq W)) s (MkTable (fst x) (snd x) [])))).
  pose proof (appended_loop _ (fun c v => do x <- mk_table c v; Ok (MkTable (fst x) (snd x) [])) (table_eq (w_eq W)) table_for) as L.
  assert (X : forall c v x, (do x <- mk_table c v; Ok (MkTable (fst x) (snd x) [])) = Ok x -> table_for (c, v) x).
  { intros c v x. unfold mk_table. destruct (negb _); [discriminate|]. destruct (negb _); [discriminate|]. cbn [bind fst snd]. intros H. now injection H as <-. }
  specialize (L X ps s). match goal with |- appended _ _ _ (fst (foldE ?f _ _)) => match type of L with appended _ _ _ (fst (foldE ?g _ _)) => assert (E : forall l s, foldE f s l = foldE g s l) end end.
  { clear. induction l as [|p l IH]; intros s; [reflexivity|]. cbn [foldE]. destruct (mk_table (fst p) (snd p)) as [x|e]; cbn [bind]; [|reflexivity].
    destruct (append_unique _ _ _); cbn [commit]; [apply IH|reflexivity]. }
  rewrite E. exact L.
Qed.
Lemma orders_names : forall W os a k, exists new, map fst (fst (orders_add W os a k)) = map fst os ++ new.
Proof.
  intros W os a k. unfold orders_add. destruct (parse_args W alias_opts a k) as [items|e]; [|exists []; now rewrite app_nil_r].
  revert os. induction items as [|it items IH]; intros os; cbn [foldE]; [exists []; now rewrite app_nil_r|].
  destruct (nth2 it) as [c v].
  assert (U : forall l st', order_update W l c v = Ok (Some st') -> map fst st' = map fst l).
  { induction l as [|[c' s'] l IHl]; intros st'; cbn [order_update]; [discriminate|]. destruct (w_eq W c' c) as [[]|e]; [| |discriminate].
    - destruct (mk_sort _ v); cbn [bind]; [|discriminate]. intros H. injection H as <-. reflexivity.
    - destruct (order_update W l c v) as [[r|]|]; cbn [bind]; try discriminate. intros H. injection H as <-. cbn [map fst]. now rewrite (IHl r). }
  destruct (order_update W os c v) as [[st'|]|e] eqn:O; cbn [bind commit].
  - destruct (IH st') as [new ->]. exists new. now rewrite (U _ _ O).
  - destruct (negb _); cbn [commit]; [exists []; now rewrite app_nil_r|]. destruct (mk_sort _ v) as [d|e]; cbn [bind commit]; [|exists []; now rewrite app_nil_r].
    destruct (IH (os ++ [(c, d)])) as [new ->]. exists (c :: new). rewrite map_app, <- app_assoc. reflexivity.
  - exists []. now rewrite app_nil_r.
Qed.
Lemma object_last : forall W c s x, is_sql_object x -> conds_where W c s [x] [] = (s ++ [x], Ok tt) /\ values_set W s [x] [] = (s ++ [x], Ok tt).
Proof. intros W c s x X. unfold is_sql_object in X. unfold conds_where, values_set. now rewrite X. Qed.
