(** Proofs for C60-C61: whole statements. *)
From Coq Require Import Lia Permutation Sorted.
From Verif Require Import Base BaseFacts NumFmt Value Regex Backend Eq Render RenderFacts
  SpecLex SpecRef SpecRead SpecLogic SpecConds BoolFacts PfBool RefFacts LiteralFacts PfLiterals PfHistories SpecWhole PfWhole PfWholeText
  PfWholeClauses PfStatements SpecClauses PfClauses SpecSql SpecServer PfSql PfSqlParse PfSqlCond PfSqlClauses PfSqlStmt PfSqlExec
  SpecNested SpecSays PfNestRead PfNestQuery PfNestText PfNestVals PfNestAll.
Open Scope N_scope.

Section Stmt.
Context (E : env).
Notation b := (e_be E).
Notation d := (dialect_of b).
Notation tells := (tells d).
Notation part := (part d).
Notation Hd := (ident_34_96 E).
Notation r := (text E).
Notation Mid := (tells_mid d Hd).
Notation Lead := (tells_lead d Hd).
Notation good := (all_good E).

Lemma goods : forall l, Forall (PfNestVals.good E) l.
Proof. intros l. apply Forall_forall. intros x _. apply good. Qed.
Lemma statement_text : forall w x l st, match w with c :: _ => is_space c = false | [] => False end -> tells (w ++ x) l ->
  p_nstatement (fst (nested (List.length l))) (snd (nested (List.length l))) l = Some (st, []) ->
  read_statement d (strip (w ++ x)) = Some st.
Proof.
  intros w x l st W T P. destruct w as [|c w]; [contradiction|]. cbn [app] in *. rewrite strip_solid; [|exact W|exact (proj1 T)].
  unfold read_statement. rewrite (tells_lexemes d _ _ T). now rewrite P.
Qed.
Lemma select_read : forall x q, query E x q -> exists t, r x = Ok t /\ read_statement d t = Some (NSelect q).
Proof.
  intros x q H. destruct (proj1 (proj2 (good x)) q H) as [t [ls [X [T [[u U] R]]]]]. exists t. split; [exact X|].
  unfold read_statement. rewrite (tells_lexemes d _ _ T). set (n := List.length ls).
  assert (Q : p_query (fst (nested n)) (snd (nested n)) (ls ++ []) = Some (q, [])) by (apply R; [subst n; lia|subst n; lia|left; left; reflexivity]).
  rewrite app_nil_r in Q. subst ls. unfold p_nstatement. rewrite seqb_refl. now rewrite Q.
Qed.
Lemma tables_said : forall l ys, l <> [] -> Forall2 (table_said E) l ys ->
  exists x ls, tables_str E r [] l = Ok x /\ tells x ls /\ readable (fun px pq => p_list (a_source px pq)) (XSym 44 :: end_table) ls ys.
Proof.
  intros l ys NE F. apply (bare_list_said E _ _ (table_str E r) a_source end_table l ys []); [|exact NE|cbn; intuition discriminate].
  apply tables_said_all; [|exact F]. intros v _. apply good.
Qed.
Definition an_assign : NP (path * nexpr) := fun px _ => p_nassign px.
Lemma assignments_said : forall l ys, Forall2 (assignment E) l ys ->
  Forall2 (fun x y => exists t ls, r x = Ok t /\ tells t ls /\ readable an_assign dot ls y) l ys.
Proof.
  intros l ys F. induction F as [|x y l ys H F IH]; constructor; [|exact IH]. clear F IH.
  inversion H as [c v p e N P V]; subst. destruct (name_text E c p N P) as [ct [Xc [NE Tc]]].
  destruct (values_said E v e (good v) V) as [vt [lv [Xv [Tv Sv]]]].
  exists (ct ++ lit " = " ++ vt), (path_lexemes p ++ XSym 61 :: lv). split; [|split].
  - rewrite text_unfold. cbn [str_body]. unfold value_str. now rewrite Xc, Xv.
  - exact (Mid _ _ c_sp (lit "= ") [XSym 61] _ _ Tc eq_refl (ltac:(split; reflexivity)) Tv).
  - intros n m L1 L2. rewrite app_length in *. cbn [List.length] in *. apply nassign_reads; [exact NE|]. apply xreads_at; [exact Sv|lia].
Qed.
Lemma delete_said : forall ig tabs refs wh al tabs' refs' wh', wh <> [] \/ al = true -> refs <> [] ->
  Forall2 (table_said E) tabs tabs' -> Forall2 (table_said E) refs refs' -> clause_said E wh wh' ->
  exists t, r (VDelete (MkDel ig tabs refs wh al)) = Ok t /\ read_statement d t = Some (NDelete ig tabs' refs' wh').
Proof.
  intros ig tabs refs wh al tabs' refs' wh' A NR Ft Fr C.
  destruct (tables_said refs refs' NR Fr) as [xr [lr [Xr [Tr Rr]]]].
  destruct (clause_said_ok E wh wh' (lit "WHERE") (goods wh) C ltac:(split; reflexivity) ltac:(discriminate)) as [xw [lw [Xw [Pw Kw]]]].
  assert (Tt : exists xt lt, part_ctx (negb (is_nilb tabs)) (tables_str E r [] tabs) = Ok xt /\ part xt lt /\
    (lt = [] /\ tabs' = [] \/ readable (fun px pq => p_list (a_source px pq)) (XSym 44 :: end_table) lt tabs')).
  { destruct tabs as [|t tabs].
    - inversion Ft; subst. exists [], []. split; [reflexivity|]. split; [apply part_none|now left].
    - destruct (tables_said (t :: tabs) tabs' ltac:(discriminate) Ft) as [x [ls [X [T R]]]].
      exists (c_sp :: x), ls. cbn [is_nilb negb part_ctx]. rewrite X. split; [reflexivity|]. split; [now apply part_some|now right]. }
  destruct Tt as [xt [lt [Xt [Pt Rt]]]].
  pose proof (part_ctx_ok ig (lit "IGNORE")) as Xi. pose proof (ignore_part E ig _ Xi) as Pi.
  set (xi := if ig then c_sp :: lit "IGNORE" else []) in *. set (li := if ig then map XWord [lit "IGNORE"] else []) in *.
  pose proof (tells_parts E [xi; xt; lit " FROM"; c_sp :: xr; xw] [li; lt; [XWord (lit "FROM")]; lr; lw]
    ltac:(repeat (constructor; [first [assumption|now apply part_some|exact (part_some d _ _ (word_tells E (lit "FROM") eq_refl))]|]); constructor)
    (lit "DELETE") [XWord (lit "DELETE")] (word_tells E (lit "DELETE") eq_refl)) as Q. cbn [List.concat] in Q. rewrite !app_nil_r in Q.
  exists (strip (lit "DELETE" ++ xi ++ xt ++ lit " FROM" ++ (c_sp :: xr) ++ xw)). split.
  - rewrite text_unfold. cbn [str_body]. unfold delete_str. cbn [d_where d_allow d_ignore d_refs d_tabs].
    assert (Al : is_nilb wh && negb al = false) by (destruct A as [A| ->]; [now rewrite (nilb_false _ wh A)|apply andb_false_r]).
    rewrite Al, Xi. cbn [bind]. rewrite (nilb_false _ refs NR), Xr. cbn [negb part_ctx bind]. rewrite Xt. cbn [bind]. rewrite Xw. reflexivity.
  - apply (statement_text (lit "DELETE") _ _ _ eq_refl Q). set (n := List.length _).
    assert (L : (List.length lt <= n /\ List.length lr <= n /\ List.length lw <= n)%nat).
    { subst n. cbn [app List.length]. rewrite !app_length. cbn [app List.length]. rewrite !app_length. lia. }
    apply (delete_reads _ _ ig lt tabs' lr refs' lw wh').
    + destruct Rt as [Rt|Rt]; [now left|right]. apply (Rt n n); lia.
    + apply (Rr n n); lia.
    + apply (clause_at _ _ _ _ _ _ n n Kw); lia.
Qed.
Lemma update_said : forall ig tabs vs wh al tabs' vs' wh', wh <> [] \/ al = true -> tabs <> [] -> vs <> [] ->
  Forall2 (table_said E) tabs tabs' -> Forall2 (assignment E) vs vs' -> clause_said E wh wh' ->
  exists t, r (VUpdate (MkUpd ig tabs vs wh al)) = Ok t /\ read_statement d t = Some (NUpdate ig tabs' vs' wh').
Proof.
  intros ig tabs vs wh al tabs' vs' wh' A NT NV Ft Fv C.
  destruct (tables_said tabs tabs' NT Ft) as [xt [lt [Xt [Tt Rt]]]].
  destruct (bare_list_said E _ _ r an_assign dot vs vs' [] (assignments_said vs vs' Fv) NV ltac:(cbn; intuition discriminate)) as [xv [lv [Xv [Tv Rv]]]].
  destruct (clause_said_ok E wh wh' (lit "WHERE") (goods wh) C ltac:(split; reflexivity) ltac:(discriminate)) as [xw [lw [Xw [Pw Kw]]]].
  pose proof (part_ctx_ok ig (lit "IGNORE")) as Xi. pose proof (ignore_part E ig _ Xi) as Pi.
  set (xi := if ig then c_sp :: lit "IGNORE" else []) in *. set (li := if ig then map XWord [lit "IGNORE"] else []) in *.
  pose proof (tells_parts E [xi; c_sp :: xt; lit " SET"; c_sp :: xv; xw] [li; lt; [XWord (lit "SET")]; lv; lw]
    ltac:(repeat (constructor; [first [assumption|now apply part_some|exact (part_some d _ _ (word_tells E (lit "SET") eq_refl))]|]); constructor)
    (lit "UPDATE") [XWord (lit "UPDATE")] (word_tells E (lit "UPDATE") eq_refl)) as Q. cbn [List.concat] in Q. rewrite !app_nil_r in Q.
  exists (strip (lit "UPDATE" ++ xi ++ (c_sp :: xt) ++ lit " SET" ++ (c_sp :: xv) ++ xw)). split.
  - rewrite text_unfold. cbn [str_body]. unfold update_str, values_str. cbn [u_where u_allow u_ignore u_vals u_tabs].
    assert (Al : is_nilb wh && negb al = false) by (destruct A as [A| ->]; [now rewrite (nilb_false _ wh A)|apply andb_false_r]).
    rewrite Al, (nilb_false _ tabs NT), Xt. cbn [negb part_ctx bind]. rewrite Xi. cbn [bind].
    rewrite (nilb_false _ vs NV), Xv. cbn [negb part_ctx bind]. rewrite Xw. reflexivity.
  - apply (statement_text (lit "UPDATE") _ _ _ eq_refl Q). set (n := List.length _).
    assert (L : (List.length lt <= n /\ List.length lv <= n /\ List.length lw <= n)%nat).
    { subst n. cbn [app List.length]. rewrite !app_length. cbn [app List.length]. rewrite !app_length. lia. }
    apply (update_reads _ _ ig lt tabs' lv vs' lw wh').
    + apply (Rt n n); lia.
    + apply (Rv n n); lia.
    + apply (clause_at _ _ _ _ _ _ n n Kw); lia.
Qed.

(** ** INSERT *)
Lemma cell_columns : forall row, Forall (column_cell E) row -> mapM part_column row = Ok (map fst (named row)).
Proof.
  intros row F. induction F as [|p row H F IH]; [reflexivity|]. destruct p; try contradiction.
  match goal with H : column_cell E (VValue ?c ?x) |- _ => destruct c; try contradiction end.
  cbn [mapM part_column bind]. rewrite IH. reflexivity.
Qed.
Lemma cell_value : forall row c e, Forall (column_cell E) row -> cell_said E row c e -> xsaid E (sqlvalue E r (row_value row c)) e.
Proof.
  intros row c e F H.
  assert (G : forall acc, fold_left (fun acc p => match p with VValue (VStr c') v => if seqb c c' then v else acc | _ => acc end) row acc
    = match last_for c (named row) with Some x => x | None => acc end).
  { clear H. induction F as [|p row H F IH]; intros acc; [reflexivity|]. destruct p; try contradiction.
    match goal with H : column_cell E (VValue ?c ?x) |- _ => destruct c; try contradiction end.
    cbn [fold_left named flat_map app last_for]. rewrite IH. fold (named row). destruct (last_for c (named row)); [reflexivity|].
    now destruct (seqb c s). }
  unfold row_value. rewrite G. inversion H as [x e' L V|L]; subst; rewrite L.
  - apply values_said; [apply good|exact V].
  - apply values_said; [apply good|]. apply vl_plain. split; [reflexivity|exact Logic.I].
Qed.
Definition a_row : NP (list nexpr) := fun px _ => p_bracketed px.
Lemma row_said : forall cols row es, cols <> [] -> Forall (column_cell E) row -> Forall2 (cell_said E row) cols es ->
  exists t ls, row_str E r cols row = Ok t /\ tells t ls /\ readable a_row [] ls es.
Proof.
  intros cols row es NE Fr F.
  assert (F' : Forall2 (fun c e => xsaid E (sqlvalue E r (row_value row c)) e) cols es).
  { clear NE. induction F; constructor; [now apply cell_value|assumption]. }
  destruct (mapM_said E _ _ (fun c => sqlvalue E r (row_value row c)) xreads cols es F') as [ts [lss [M [FT [X L]]]]].
  assert (N : ts <> []) by (eapply length_nil; eauto). assert (N' : lss <> []) by (destruct FT; [contradiction|discriminate]).
  pose proof (comma_tells E ts lss FT N) as T.
  exists (paren (sjoin (lit ", ") ts)), (bracketed (joinx [XSym 44] lss)). split; [unfold row_str; now rewrite M|].
  split; [now apply (tells_paren d Hd)|]. intros n m L1 L2. rewrite bracketed_length in *.
  apply bracketed_reads with (bad := dot); [|exact N'|cbn; intuition discriminate|cbn; intuition discriminate].
  assert (K : Forall (fun z => List.length z <= n)%nat lss) by (apply (joinx_parts [XSym 44]); lia).
  clear - X K. induction X as [|l e lss es H F IH]; [constructor|]. inversion K; subst. constructor; [now apply xreads_at|auto].
Qed.
Lemma insert_said : forall re ig n p rows dup cf cols rows' dup', name_ok b n -> path_of n = Some p -> rows <> [] ->
  Forall (Forall (column_cell E)) rows -> cols <> [] -> StronglySorted SpecArgs.before cols ->
  (forall c, In c cols <-> exists row, In row rows /\ In c (map fst (named row))) ->
  Forall2 (fun row es => Forall2 (cell_said E row) cols es) rows rows' -> Forall2 (assignment E) dup dup' ->
  exists t, r (VInsert (MkIns re ig [MkTable n VNone []] rows dup cf [])) = Ok t /\
    read_statement d t = Some (NInsert re ig p (map (fun c => [c]) cols) rows' dup').
Proof.
  intros re ig n p rows dup cf cols rows' dup' N P NR Fc NC So Mem Fr Fd.
  destruct (name_text E n p N P) as [nt [Xn [NP Tn]]].
  assert (Xt : tables_str E r [] [MkTable n VNone []] = Ok nt).
  { unfold tables_str, mapM, table_str. cbn [tb_name tb_alias tb_joins aliased_str truthy is_nilb]. rewrite Xn. reflexivity. }
  assert (Fa : Forall (column_cell E) (List.concat rows)).
  { apply Forall_forall. intros x I. apply in_concat in I. destruct I as [row [I1 I2]]. rewrite Forall_forall in Fc.
    specialize (Fc row I1). rewrite Forall_forall in Fc. now apply Fc. }
  assert (Ac : all_columns rows = Ok cols).
  { unfold all_columns. rewrite cell_columns by exact Fa. cbn [bind]. f_equal.
    apply sorted_same; [apply ssort_sorted, suniq_nodup|exact So|]. intros c. rewrite ssort_in, suniq_in, named_concat. symmetry. apply Mem. }
  assert (Gc : forall c, In c cols -> good_name (quote_of b) c /\ name_segments c = [c]).
  { intros c I. apply Mem, named_concat in I. clear - I Fa. induction Fa as [|x l H F IH]; [contradiction|]. destruct x; try contradiction.
    match goal with H : column_cell E (VValue ?c ?x) |- _ => destruct c; try contradiction; destruct H as [H1 H2] end.
    cbn in I. destruct I as [<-|I]; [now split|]. now apply IH. }
  assert (Tc : Forall2 tells (map (reference b) cols) (map path_lexemes (map (fun c => [c]) cols))).
  { clear - Gc. induction cols as [|c cols IH]; constructor.
    - destruct (Gc c (or_introl eq_refl)) as [G1 G2]. pose proof (tells_name E c G1) as Q. rewrite G2 in Q. exact Q.
    - apply IH. intros c' I. apply Gc. now right. }
  assert (Rc : Forall2 (reads p_column dot) (map path_lexemes (map (fun c => [c]) cols)) (map (fun c => [c]) cols)).
  { apply paths_read. apply Forall_forall. intros x I. apply in_map_iff in I. destruct I as [c [<- _]]. discriminate. }
  assert (Fr' : Forall2 (fun row es => exists t ls, row_str E r cols row = Ok t /\ tells t ls /\ readable a_row [] ls es) rows rows').
  { clear - Fr Fc NC. induction Fr as [|row es rows rows' H F IH]; [constructor|]. inversion Fc; subst. constructor; [now apply row_said|auto]. }
  destruct (mapM_said E _ _ (row_str E r cols) _ rows rows' Fr') as [ts [lss [M [FT [FQ L]]]]].
  assert (Nt : ts <> []) by (eapply length_nil; eauto). assert (Nl : lss <> []) by (destruct FT; [contradiction|discriminate]).
  pose proof (readable_list _ a_row [] lss rows' FQ Nl (fun x => x)) as Rr.
  destruct (list_said E _ _ r an_assign dot dup dup' (lit "ON DUPLICATE KEY UPDATE") (lit "ON") [lit "DUPLICATE"; lit "KEY"; lit "UPDATE"] (assignments_said dup dup' Fd)
    ltac:(cbn; intuition discriminate) ltac:(split; reflexivity) ltac:(discriminate)) as [xd [ld [od [Xd [Pd [Cd Od]]]]]].
  pose proof (part_ctx_ok ig (lit "IGNORE")) as Xi. pose proof (ignore_part E ig _ Xi) as Pi.
  set (xi := if ig then c_sp :: lit "IGNORE" else []) in *. set (li := if ig then map XWord [lit "IGNORE"] else []) in *.
  set (kw := if re then lit "REPLACE" else lit "INSERT").
  set (lc := XSym 40 :: joinx [XSym 44] (map path_lexemes (map (fun c => [c]) cols)) ++ [XSym 41]).
  set (vt := paren (sjoin (lit ", ") (map (reference b) cols)) ++ lit " VALUES " ++ sjoin (lit ", ") ts).
  assert (Tv : tells vt (lc ++ XWord (lit "VALUES") :: joinx [XSym 44] lss)).
  { apply (Mid _ _ c_sp (lit "VALUES ") [XWord (lit "VALUES")]); [|reflexivity|split; reflexivity|now apply comma_tells].
    apply (tells_paren d Hd). apply (tells_join d Hd 44 [32]); [reflexivity|split; reflexivity| |exact Tc]. destruct cols; [contradiction|discriminate]. }
  assert (Tk : tells kw [XWord kw]) by (subst kw; destruct re; apply (word_tells E); reflexivity).
  pose proof (tells_parts E [xi; lit " INTO"; c_sp :: nt; c_sp :: vt; xd] [li; [XWord (lit "INTO")]; path_lexemes p; lc ++ XWord (lit "VALUES") :: joinx [XSym 44] lss; ld]
    ltac:(repeat (constructor; [first [assumption|now apply part_some|exact (part_some d _ _ (word_tells E (lit "INTO") eq_refl))]|]); constructor)
    kw [XWord kw] Tk) as Q. cbn [List.concat] in Q. rewrite !app_nil_r in Q. rewrite <- !app_assoc in Q. cbn [app] in Q.
  exists (strip (kw ++ xi ++ lit " INTO" ++ (c_sp :: nt) ++ (c_sp :: vt) ++ xd)). split.
  - rewrite text_unfold. cbn [str_body]. unfold insert_str. cbn [i_replace i_ignore i_tabs i_rows i_dup i_conflict i_upd is_nilb negb].
    rewrite Xi. cbn [part_ctx bind]. unfold values_str. rewrite Xd. cbn [bind]. rewrite Xt. cbn [bind]. rewrite (nilb_false _ rows NR). cbn [negb part_ctx].
    unfold rows_str. rewrite Ac. cbn [bind]. rewrite M. cbn [bind]. rewrite !app_nil_r. fold kw. fold vt. f_equal.
  - apply (statement_text kw _ (XWord kw :: li ++ XWord (lit "INTO") :: path_lexemes p ++ lc ++ XWord (lit "VALUES") :: joinx [XSym 44] lss ++ ld)).
    + subst kw. destruct re; reflexivity.
    + cbn [app]. rewrite <- ?app_assoc in Q. cbn [app] in Q |- *. exact Q.
    + set (k := List.length _).
      assert (Lk : (List.length (joinx [XSym 44%N] lss) <= k /\ List.length ld <= k)%nat).
      { subst k. cbn [app List.length]. rewrite !app_length. cbn [app List.length]. rewrite !app_length. cbn [List.length]. rewrite !app_length. lia. }
      rewrite <- Od. apply (insert_reads _ _ re ig p lc _ (joinx [XSym 44] lss) rows' ld od); [exact NP| | | |subst lc; eauto].
      * apply bracketed_reads with (bad := dot); [exact Rc| | |]; [|cbn; intuition discriminate|cbn; intuition discriminate].
        destruct cols; [contradiction|discriminate].
      * apply (Rr k k); lia.
      * apply (clause_at _ _ _ _ _ _ k k Cd); lia.
Qed.
Theorem statement_read : forall x st, statement_said E x st -> exists t, r x = Ok t /\ read_statement d t = Some st.
Proof.
  intros x st H. inversion H; subst.
  - now apply select_read.
  - now apply delete_said.
  - now apply update_said.
  - now apply insert_said.
Qed.
End Stmt.
Lemma condition_read : forall E x t, condition E x t ->
  exists s, text E x = Ok s /\ read_condition (dialect_of (e_be E)) s = Some t.
Proof.
  intros E x t H. destruct (proj2 (proj2 (proj2 (all_good E x))) t H) as [s [ls [X [T S]]]]. exists s. split; [exact X|].
  unfold read_condition. rewrite (tells_lexemes _ _ _ T). apply tsays_condition in S.
  destruct (S (List.length ls) (List.length ls)) as [_ R]; [lia|lia|]. specialize (R [] Logic.I). rewrite app_nil_r in R. cbv zeta. now rewrite R.
Qed.
Lemma same_text : forall E x y s u, statement_said E x s -> statement_said E y u -> text E x = text E y -> s = u.
Proof.
  intros E x y s u H K Q. destruct (statement_read E x s H) as [t [T R]]. destruct (statement_read E y u K) as [t' [T' R']].
  rewrite Q, T' in T. injection T as ->. rewrite R in R'. now injection R'.
Qed.
