(** Lemmas: the module-level functions. *)
From Coq Require Import Lia.
From Verif Require Import Base NumFmt Value Backend Eq Render ParseArgs Build Queries BaseFacts RenderFacts RefFacts LiteralFacts SpecRead SpecRef SpecEntry.
Open Scope N_scope.

Section Entry.
Variable (E : env).
Let b := e_be E.
Let W := pure_world E.

Lemma commas_join : forall l, with_commas l = sjoin (lit ", ") l.
Proof. induction l as [|x [|y r] IH]; [reflexivity|reflexivity|]. cbn [with_commas sjoin] in *. rewrite IH. reflexivity. Qed.
Lemma one_segment : forall s cur, ~ In 46 s -> cur ++ s <> [] -> segments cur s = [cur ++ s].
Proof.
  induction s as [|c s IH]; intros cur N NE.
  - cbn. rewrite app_nil_r in *. destruct cur; [contradiction|reflexivity].
  - cbn [segments]. destruct (N.eqb_spec c 46) as [->|D]; [exfalso; apply N; left; reflexivity|]. rewrite IH.
    + rewrite <- app_assoc. reflexivity.
    + intros I. apply N. right. exact I.
    + destruct cur; discriminate.
Qed.
Lemma quoted_name : forall n, one_part b n -> reference b n = in_quotes b n.
Proof.
  intros n (NE & ND & NQ & NS). rewrite reference_noquote by exact NQ. unfold name_segments. rewrite one_segment by assumption. cbn [app map sjoin]. unfold quote_part.
  destruct (seqb n [c_star]) eqn:S; [apply seqb_eq in S; contradiction|]. reflexivity.
Qed.
Lemma names_join : forall ns, Forall (one_part b) ns -> sjoin (lit ", ") (map (reference b) ns) = names_text b ns.
Proof.
  intros ns F. unfold names_text. rewrite commas_join. f_equal. apply map_ext_in. intros n I. apply quoted_name. rewrite Forall_forall in F. auto.
Qed.
(** ** parse_args *)
Lemma parse_names : forall ns, parse_args W alias_opts (map VStr ns) [] = Ok (map (fun n => [VStr n; VNone]) ns).
Proof.
  intros ns. assert (L : parse_list alias_opts (map VStr ns) = Ok (map (fun n => [VStr n; VNone]) ns)).
  { unfold parse_list. induction ns as [|n ns IH]; [reflexivity|]. cbn [map mapM]. rewrite IH. reflexivity. }
  unfold parse_args. destruct ns as [|n [|m ns]]; [reflexivity| |].
  - cbn [map] in *. cbn [andb Nat.ltb Nat.leb p_min alias_opts]. rewrite L. reflexivity.
  - cbn [map] in *. cbn [andb Nat.ltb Nat.leb p_min alias_opts]. rewrite L. cbn [bind]. rewrite app_nil_r. reflexivity.
Qed.
Lemma names_truthy : forall ns, Forall (one_part b) ns -> filter truthy (map VStr ns) = map VStr ns.
Proof.
  intros ns F. induction F as [|n ns (NE & _) F IH]; [reflexivity|]. cbn [map filter]. rewrite IH. destruct n; [contradiction|reflexivity].
Qed.
(** ** distinct names stay *)
Lemma str_eq : forall a c, py_eq E (VStr a) (VStr c) = Ok (seqb a c).
Proof. intros. reflexivity. Qed.
Lemma columns_fold : forall ns cs, NoDup (cs ++ ns) ->
  foldE (fun s it => let (c, a) := nth2 it in commit s (do x <- mk_column c a; append_unique (pair_eq (w_eq W)) s x))
    (map (fun n => (VStr n, VNone)) cs) (map (fun n => [VStr n; VNone]) ns) = (map (fun n => (VStr n, VNone)) (cs ++ ns), Ok tt).
Proof.
  induction ns as [|n ns IH]; intros cs ND; [rewrite app_nil_r; reflexivity|]. cbn [map foldE nth2 nth].
  assert (M : mk_column (VStr n) VNone = Ok (VStr n, VNone)) by reflexivity. rewrite M. cbn [bind]. unfold append_unique.
  assert (A : anyM (fun p => pair_eq (w_eq W) p (VStr n, VNone)) (map (fun n => (VStr n, VNone)) cs) = Ok false).
  { assert (NI : ~ In n cs). { intros I. apply NoDup_remove_2 in ND. apply ND. apply in_or_app. left. exact I. }
    clear - NI. induction cs as [|c cs IH]; [reflexivity|]. cbn [map anyM]. unfold pair_eq at 1. cbn [fst snd]. cbn [W w_eq pure_world]. rewrite str_eq.
    destruct (seqb c n) eqn:S; [apply seqb_eq in S; subst; exfalso; apply NI; left; reflexivity|]. cbn. apply IH. intros I. apply NI. right. exact I. }
  rewrite A. cbn [bind commit fst snd]. change (map (fun n => (VStr n, VNone)) cs ++ [(VStr n, VNone)]) with (map (fun n => (VStr n, VNone)) cs ++ map (fun n => (VStr n, VNone)) [n]).
  rewrite <- map_app. rewrite IH by (rewrite <- app_assoc; exact ND). rewrite <- app_assoc. reflexivity.
Qed.
Lemma tables_fold : forall ns cs, NoDup (cs ++ ns) ->
  foldE (fun s it => let (n, a) := nth2 it in commit s (do x <- mk_table n a; append_unique (table_eq (w_eq W)) s (MkTable (fst x) (snd x) [])))
    (map (fun n => MkTable (VStr n) VNone []) cs) (map (fun n => [VStr n; VNone]) ns) = (map (fun n => MkTable (VStr n) VNone []) (cs ++ ns), Ok tt).
Proof.
  induction ns as [|n ns IH]; intros cs ND; [rewrite app_nil_r; reflexivity|]. cbn [map foldE nth2 nth].
  assert (M : mk_table (VStr n) VNone = Ok (VStr n, VNone)) by reflexivity. rewrite M. cbn [bind fst snd]. unfold append_unique.
  assert (A : anyM (fun p => table_eq (w_eq W) p (MkTable (VStr n) VNone [])) (map (fun n => MkTable (VStr n) VNone []) cs) = Ok false).
  { assert (NI : ~ In n cs). { intros I. apply NoDup_remove_2 in ND. apply ND. apply in_or_app. left. exact I. }
    clear - NI. induction cs as [|c cs IH]; [reflexivity|]. cbn [map anyM]. unfold table_eq at 1. cbn [tb_name tb_alias tb_joins]. cbn [W w_eq pure_world]. rewrite str_eq.
    destruct (seqb c n) eqn:S; [apply seqb_eq in S; subst; exfalso; apply NI; left; reflexivity|]. cbn. apply IH. intros I. apply NI. right. exact I. }
  rewrite A. cbn [bind commit fst snd]. change (map (fun n => MkTable (VStr n) VNone []) cs ++ [MkTable (VStr n) VNone []]) with (map (fun n => MkTable (VStr n) VNone []) cs ++ map (fun n => MkTable (VStr n) VNone []) [n]).
  rewrite <- map_app. rewrite IH by (rewrite <- app_assoc; exact ND). rewrite <- app_assoc. reflexivity.
Qed.
Definition cols_of (ns : list str) : list (val * val) := map (fun n => (VStr n, VNone)) ns.
Definition tabs_of (ns : list str) : list (table val) := map (fun n => MkTable (VStr n) VNone []) ns.
Lemma columns_names : forall ns, NoDup ns -> columns_add W [] (map VStr ns) [] = (cols_of ns, Ok tt).
Proof. intros ns ND. unfold columns_add. rewrite parse_names. exact (columns_fold ns [] ND). Qed.
Lemma tables_names : forall ns, Forall (one_part b) ns -> NoDup ns -> tables_set W [] (map VStr ns) [] = (tabs_of ns, Ok tt).
Proof. intros ns F ND. unfold tables_set. rewrite names_truthy by exact F. rewrite parse_names. exact (tables_fold ns [] ND). Qed.
(** ** the text *)
Lemma columns_texts : forall r ns, ns <> [] -> Forall (one_part b) ns -> columns_str E r (cols_of ns) = Ok (names_text b ns).
Proof.
  intros r ns NE F. unfold columns_str. assert (M : mapM (aliased_str E r) (cols_of ns) = Ok (map (reference b) ns)).
  { clear NE F. induction ns as [|n ns IH]; [reflexivity|]. cbn [cols_of map mapM]. fold (cols_of ns). rewrite IH. reflexivity. }
  rewrite M. cbn [bind]. unfold parts_str. destruct ns as [|n ns]; [contradiction|]. cbn [map is_nilb]. rewrite <- names_join by exact F. reflexivity.
Qed.
Lemma tables_texts : forall r kw ns, ns <> [] -> Forall (one_part b) ns ->
  tables_str E r kw (tabs_of ns) = Ok ((match kw with [] => [] | _ => kw ++ [32] end) ++ names_text b ns).
Proof.
  intros r kw ns NE F. unfold tables_str. assert (M : mapM (table_str E r) (tabs_of ns) = Ok (map (reference b) ns)).
  { clear NE F. induction ns as [|n ns IH]; [reflexivity|]. cbn [tabs_of map mapM]. fold (tabs_of ns). rewrite IH. reflexivity. }
  rewrite M. cbn [bind]. unfold parts_str. destruct ns as [|n ns]; [contradiction|]. cbn [map is_nilb]. rewrite <- names_join by exact F.
  destruct kw; cbn [is_nilb]; [reflexivity|]. rewrite <- app_assoc. reflexivity.
Qed.
Lemma quote_solid : is_space (quote_of b) = false.
Proof. destruct b; reflexivity. Qed.
Lemma names_end : forall ns, ns <> [] -> exists s, names_text b ns = s ++ [quote_of b].
Proof.
  induction ns as [|n ns IH]; [contradiction|]. intros _. destruct ns as [|m ns].
  - exists ([quote_of b] ++ n). unfold names_text. cbn [map with_commas]. unfold in_quotes. rewrite <- app_assoc. reflexivity.
  - destruct IH as [s E']; [discriminate|]. exists (in_quotes b n ++ [44; 32] ++ s). unfold names_text in *. cbn [map with_commas] in *. rewrite E', <- !app_assoc. reflexivity.
Qed.
Lemma strip_ends : forall c s d, is_space c = false -> is_space d = false -> strip (c :: s ++ [d]) = c :: s ++ [d].
Proof.
  intros c s d A B. unfold strip. cbn [lstrip]. rewrite A. unfold rstrip. cbn [rev]. rewrite rev_app_distr. cbn [rev app lstrip]. rewrite B.
  cbn [rev]. rewrite rev_app_distr, rev_involutive. reflexivity.
Qed.
Lemma strip_names : forall c s ns, is_space c = false -> ns <> [] -> strip (c :: s ++ names_text b ns) = c :: s ++ names_text b ns.
Proof. intros c s ns A NE. destruct (names_end ns NE) as [t ->]. rewrite app_assoc. apply strip_ends; [exact A|exact quote_solid]. Qed.
(** ** the statements *)
Lemma select_names : forall cs ts, Forall (one_part b) cs -> NoDup cs -> Forall (one_part b) ts -> NoDup ts ->
  exists q q', mk_select W (map VStr cs) [] = Ok q /\ sel_step W q (SFrom (map VStr ts) []) = (q', Ok tt) /\
    text E (VSelect q') = Ok (lit "SELECT " ++ (match cs with [] => lit "*" | _ => names_text b cs end) ++ (match ts with [] => [] | _ => lit " FROM " ++ names_text b ts end)).
Proof.
  intros cs ts FC NC FT NT. unfold mk_select. cbn [sel_step]. change (s_cols empty_select) with (@nil (val * val)). rewrite columns_names by exact NC. cbn [lift1 made].
  eexists. eexists. split; [reflexivity|]. cbn [sel_step]. unfold with_cols. cbn [empty_select s_tabs]. rewrite tables_names by assumption. cbn [lift1]. split; [reflexivity|].
  rewrite text_unfold. cbn [str_body]. unfold select_str. cbn. unfold part_ctx.
  assert (C : columns_str E (text E) (cols_of cs) = Ok (match cs with [] => lit "*" | _ => names_text b cs end)).
  { destruct cs as [|c cs]; [reflexivity|]. apply columns_texts; [discriminate|exact FC]. }
  rewrite C. cbn [bind]. destruct ts as [|t ts].
  - cbn [tabs_of map is_nilb negb bind]. rewrite !app_nil_r. cbn [app]. destruct cs as [|c cs]; [reflexivity|]. cbn [lit app] in *. f_equal.
    exact (strip_names 83 [69; 76; 69; 67; 84; 32] (c :: cs) eq_refl ltac:(discriminate)).
  - assert (NB : is_nilb (tabs_of (t :: ts)) = false) by reflexivity. rewrite NB. cbn [negb]. rewrite tables_texts; [|discriminate|exact FT]. cbn [bind]. rewrite !app_nil_r. f_equal.
    set (m := match cs with [] => _ | _ => _ end). pose proof (strip_names 83 ([69; 76; 69; 67; 84; 32] ++ m ++ lit " FROM ") (t :: ts) eq_refl ltac:(discriminate)) as X.
    rewrite <- !app_assoc in X. exact X.
Qed.
Lemma select_from_names : forall ts, Forall (one_part b) ts -> NoDup ts ->
  exists q, mk_select_from W (map VStr ts) [] = Ok q /\ text E (VSelect q) = Ok (lit "SELECT *" ++ (match ts with [] => [] | _ => lit " FROM " ++ names_text b ts end)).
Proof.
  intros ts FT NT. destruct (select_names [] ts ltac:(constructor) ltac:(constructor) FT NT) as (q & q' & M & S & T). exists q'.
  assert (Q : q = empty_select) by (injection M as <-; reflexivity). subst q. unfold mk_select_from. rewrite S. split; [reflexivity|exact T].
Qed.
Lemma delete_names : forall ds ts, Forall (one_part b) ds -> NoDup ds -> ts <> [] -> Forall (one_part b) ts -> NoDup ts ->
  exists q q', mk_delete W (map VStr ds) = Ok q /\ del_step W q (DFrom (map VStr ts) []) = (q', Ok tt) /\ text E (VDelete q') = Err EConfirmDelete /\
    text E (VDelete (fst (del_step W q' DAllow))) = Ok (lit "DELETE" ++ (match ds with [] => [] | _ => lit " " ++ names_text b ds end) ++ lit " FROM " ++ names_text b ts).
Proof.
  intros ds ts FD ND NE FT NT. unfold mk_delete. cbn [del_step empty_delete]. rewrite tables_names by assumption. cbn [lift1 made].
  eexists. eexists. split; [reflexivity|]. cbn [del_step]. rewrite tables_names by assumption. cbn [lift1]. split; [reflexivity|]. split; [reflexivity|]. cbn [del_step fst].
  rewrite text_unfold. cbn [str_body]. unfold delete_str. cbn [d_where d_allow d_ignore d_refs d_tabs is_nilb negb andb]. unfold part_ctx. cbn [bind].
  assert (NB : is_nilb (tabs_of ts) = false) by (destruct ts; [contradiction|reflexivity]). rewrite NB. cbn [negb]. rewrite tables_texts by assumption. cbn [bind app].
  destruct ds as [|d ds].
  - cbn [tabs_of map is_nilb negb bind app]. rewrite !app_nil_r. f_equal. exact (strip_names 68 (lit "ELETE FROM ") ts eq_refl NE).
  - assert (ND' : is_nilb (tabs_of (d :: ds)) = false) by reflexivity. rewrite ND'. cbn [negb]. rewrite tables_texts; [|discriminate|exact FD]. cbn [bind app]. rewrite !app_nil_r. f_equal.
    pose proof (strip_names 68 (lit "ELETE " ++ names_text b (d :: ds) ++ lit " FROM ") ts eq_refl NE) as X. rewrite <- !app_assoc in X. exact X.
Qed.
Lemma delete_from_names : forall ts, ts <> [] -> Forall (one_part b) ts -> NoDup ts ->
  exists q, mk_delete_from W (map VStr ts) [] = Ok q /\ text E (VDelete q) = Err EConfirmDelete /\
    text E (VDelete (fst (del_step W q DAllow))) = Ok (lit "DELETE FROM " ++ names_text b ts).
Proof.
  intros ts NE FT NT. destruct (delete_names [] ts ltac:(constructor) ltac:(constructor) NE FT NT) as (q & q' & M & S & C & T). exists q'.
  assert (Q : q = empty_delete) by (injection M as <-; reflexivity). subst q. unfold mk_delete_from. rewrite S. split; [reflexivity|]. split; [exact C|exact T].
Qed.
Lemma digit_solid : forall c, 48 <= c <= 57 -> is_space c = false.
Proof. intros c H. assert (X : In c [48; 49; 50; 51; 52; 53; 54; 55; 56; 57]) by (cbn; lia). cbn in X. repeat (destruct X as [<-|X]; [reflexivity|]). contradiction. Qed.
Lemma int_end : forall z, exists s d, z_dec z = s ++ [d] /\ is_space d = false.
Proof.
  assert (X : forall n, exists s d, n_dec n = s ++ [d] /\ is_space d = false).
  { intros n. destruct (exists_last (n_dec_nonnil n)) as (s & d & E'). exists s, d. split; [exact E'|]. apply digit_solid. apply (n_dec_digits n). rewrite E'. apply in_or_app. right. left. reflexivity. }
  intros z. destruct z; cbn [z_dec]; try apply X. destruct (X (N.pos p)) as (s & d & -> & D). exists (45 :: s), d. auto.
Qed.
Lemma table_name : forall t, one_part b t -> tables_set W [] [VStr t] [] = (tabs_of [t], Ok tt).
Proof. intros t F. apply (tables_names [t]); [constructor; [exact F|constructor]|constructor; [intros []|constructor]]. Qed.
Lemma table_text : forall r t, one_part b t -> tables_str E r [] (tabs_of [t]) = Ok (in_quotes b t).
Proof. intros r t F. rewrite tables_texts; [reflexivity|discriminate|constructor; [exact F|constructor]]. Qed.
Lemma set_one : forall c z, values_set W [] [] [(c, VInt z)] = ([VValue (VStr c) (VInt z)], Ok tt).
Proof. intros. reflexivity. Qed.
Lemma update_names : forall t c z x, one_part b t -> one_part b c -> text E (VSqlV (VInt z)) = Ok x ->
  exists q q', mk_update W (VStr t) = Ok q /\ upd_step W q (USet [] [(c, VInt z)]) = (q', Ok tt) /\ text E (VUpdate q') = Err EConfirmUpdate /\
    text E (VUpdate (fst (upd_step W q' UAllow))) = Ok (lit "UPDATE " ++ in_quotes b t ++ lit " SET " ++ in_quotes b c ++ lit " = " ++ x).
Proof.
  intros t c z x FT FC X. unfold mk_update. cbn [upd_step empty_update]. rewrite table_name by exact FT. cbn [lift1 made].
  eexists. eexists. split; [reflexivity|]. cbn [upd_step]. rewrite set_one. cbn [lift1]. split; [reflexivity|]. split; [reflexivity|]. cbn [upd_step fst].
  rewrite text_unfold. cbn [str_body]. unfold update_str. cbn [u_where u_allow u_ignore u_tabs u_vals is_nilb negb andb]. unfold part_ctx. cbn [bind].
  change (is_nilb (tabs_of [t])) with false. cbn [negb]. rewrite table_text by exact FT. cbn [bind].
  assert (V : values_str (text E) [] [VValue (VStr c) (VInt z)] = Ok (in_quotes b c ++ lit " = " ++ x)).
  { unfold values_str. cbn [mapM]. rewrite text_unfold. cbn [str_body]. unfold value_str. cbn [sqlref sqlvalue bind]. rewrite text_unfold in X. cbn [str_body sqlvalue] in X. injection X as <-.
    fold b. rewrite quoted_name by exact FC. reflexivity. }
  rewrite V. cbn [bind app]. rewrite app_nil_r. f_equal. rewrite text_unfold in X. cbn [str_body sqlvalue] in X. injection X as <-. destruct (int_end z) as (s & d & -> & D).
  pose proof (strip_ends 85 (lit "PDATE " ++ in_quotes b t ++ lit " SET " ++ in_quotes b c ++ lit " = " ++ s) d eq_refl D) as Y. rewrite <- !app_assoc in Y. exact Y.
Qed.
Lemma insert_names : forall t c z x, one_part b t -> one_part b c -> text E (VSqlV (VInt z)) = Ok x ->
  exists q q', mk_insert_into W (VStr t) = Ok q /\ ins_step W q (IValues [] [(c, VInt z)]) = (q', Ok tt) /\
    text E (VInsert q') = Ok (lit "INSERT INTO " ++ in_quotes b t ++ lit " (" ++ in_quotes b c ++ lit ") VALUES (" ++ x ++ lit ")").
Proof.
  intros t c z x FT FC X. unfold mk_insert_into. cbn [ins_step empty_insert]. rewrite table_name by exact FT. cbn [lift1 made].
  eexists. eexists. split; [reflexivity|]. cbn [ins_step]. unfold rows_add. rewrite set_one. cbn [lift1 app]. split; [reflexivity|].
  rewrite text_unfold. cbn [str_body]. unfold insert_str. cbn [i_ignore i_replace i_upd i_dup i_tabs i_rows is_nilb negb fst]. unfold part_ctx. cbn [bind].
  change (is_nilb (tabs_of [t])) with false. cbn [negb]. rewrite table_text by exact FT. cbn [bind].
  assert (V : rows_str E (text E) [[VValue (VStr c) (VInt z)]] = Ok (lit "(" ++ in_quotes b c ++ lit ") VALUES (" ++ x ++ lit ")")).
  { unfold rows_str. cbn [all_columns List.concat app mapM part_column bind suniq existsb ssort sinsert]. unfold all_columns. cbn [List.concat app mapM part_column bind suniq existsb ssort sinsert].
    unfold row_str. cbn [mapM row_value fold_left]. rewrite seqb_refl. rewrite text_unfold in X. cbn [str_body sqlvalue] in X. injection X as <-. cbn [sqlvalue bind map sjoin].
    fold b. rewrite quoted_name by exact FC. unfold paren. cbn [lit app]. rewrite <- !app_assoc. reflexivity. }
  rewrite V. cbn [bind app]. rewrite !app_nil_r. f_equal.
  pose proof (strip_ends 73 (lit "NSERT INTO " ++ in_quotes b t ++ lit " (" ++ in_quotes b c ++ lit ") VALUES (" ++ x) 41 eq_refl eq_refl) as Y. rewrite <- !app_assoc in Y.
  exact Y.
Qed.
End Entry.
