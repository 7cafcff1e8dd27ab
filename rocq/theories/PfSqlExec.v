(** Proofs for C56-C58: INSERT, and what executing the statements does. *)
From Coq Require Import Lia Permutation.
From Verif Require Import Base BaseFacts NumFmt Value Regex Backend Eq Render RenderFacts
  SpecLex SpecRef SpecRead SpecLogic SpecConds BoolFacts PfBool RefFacts LiteralFacts PfLiterals PfHistories SpecWhole PfWhole PfWholeText
  PfWholeClauses PfStatements SpecSql SpecServer PfSql PfSqlParse PfSqlCond PfSqlTree PfSqlClauses PfSqlStmt.
Open Scope N_scope.

Lemma in_seqb : forall (c : str) l, existsb (seqb c) l = true <-> In c l.
Proof.
  intros c l. rewrite existsb_exists. split.
  - intros [x [I X]]. apply seqb_eq in X. now subst.
  - intros I. exists c. split; [exact I|apply seqb_refl].
Qed.
Lemma fill_columns : forall cols f x, fill (map (fun c => [c]) cols) (map f cols) x = if existsb (seqb x) cols then f x else LNull.
Proof.
  induction cols as [|c cols IH]; intros f x; [reflexivity|]. cbn [map fill existsb column_of last].
  destruct (seqb x c) eqn:X; cbn [orb]; [|apply IH]. apply seqb_eq in X. now subst.
Qed.
Lemma last_for_none : forall A c (l : list (str * A)), ~ In c (map fst l) -> last_for c l = None.
Proof.
  induction l as [|[c' x] l IH]; intros N; [reflexivity|]. cbn [map fst In] in N. cbn [last_for]. rewrite IH by tauto.
  destruct (seqb c c') eqn:X; [|reflexivity]. apply seqb_eq in X. subst. tauto.
Qed.
Lemma fold_store : forall l r c, fold_left store l r c =
  match last_for c (map (fun a => (column_of (fst a), snd a)) l) with Some x => x | None => r c end.
Proof.
  induction l as [|[p x] l IH]; intros r c; [reflexivity|]. cbn [fold_left map last_for fst snd]. rewrite IH.
  destruct (last_for c (map (fun a : path * literal => (column_of (fst a), snd a)) l)); [reflexivity|].
  unfold store. cbn [fst snd]. now destruct (seqb c (column_of p)).
Qed.
Lemma path_eqb_refl : forall p, path_eqb p p = true.
Proof. induction p as [|s p IH]; [reflexivity|]. cbn. now rewrite seqb_refl. Qed.
Lemma path_eqb_eq : forall p q, path_eqb p q = true -> p = q.
Proof.
  induction p as [|s p IH]; intros [|t q] H; try discriminate; [reflexivity|]. cbn in H. apply andb_true_iff in H.
  destruct H as [H1 H2]. apply seqb_eq in H1. subst. f_equal. now apply IH.
Qed.
Lemma change_here : forall db p f, change db p f p = f (db p).
Proof. intros. unfold change. now rewrite path_eqb_refl. Qed.
Lemma change_other : forall db p f p', p' <> p -> change db p f p' = db p'.
Proof. intros db p f p' N. unfold change. destruct (path_eqb p' p) eqn:X; [|reflexivity]. apply path_eqb_eq in X. contradiction. Qed.

Section Execution.
Context (E : env).
Notation b := (e_be E).
Notation d := (dialect_of b).
Notation tells := (tells d).
Notation part := (part d).
Notation Hd := (ident_34_96 E).
Notation r := (text E).
Notation Mid := (tells_mid d Hd).

Definition cell_fine (p : val) : Prop := match p with
  | VValue (VStr c) x => good_name (quote_of b) c /\ name_segments c = [c] /\ value_ok b x /\ literal_of b x <> None
  | _ => False
  end.
Lemma cells_columns : forall row, Forall cell_fine row -> mapM part_column row = Ok (map fst (named row)).
Proof.
  intros row F. induction F as [|p row H F IH]; [reflexivity|]. destruct p; try contradiction.
  match goal with H : cell_fine (VValue ?c ?x) |- _ => destruct c; try contradiction end.
  cbn [mapM part_column bind]. rewrite IH. reflexivity.
Qed.
Lemma named_app : forall x y, named (x ++ y) = named x ++ named y.
Proof. intros. apply flat_map_app. Qed.
Lemma named_concat : forall rows c, In c (map fst (named (List.concat rows))) <-> exists row, In row rows /\ In c (map fst (named row)).
Proof.
  induction rows as [|row rows IH]; intros c; cbn [List.concat].
  - split; [intros []|intros [x [[] _]]].
  - rewrite named_app, map_app, in_app_iff, IH. split.
    + intros [H|[x [H1 H2]]]; [exists row; split; [now left|exact H]|exists x; split; [now right|exact H2]].
    + intros [x [[<-|H1] H2]]; [now left|right; eauto].
Qed.
Lemma row_value_last : forall row c, Forall cell_fine row ->
  row_value row c = match last_for c (named row) with Some x => x | None => VNone end /\
  (value_ok b (row_value row c) /\ literal_of b (row_value row c) = Some (row_asked b row c)).
Proof.
  intros row c F.
  assert (G : forall acc, fold_left (fun acc p => match p with VValue (VStr c') v => if seqb c c' then v else acc | _ => acc end) row acc
    = match last_for c (named row) with Some x => x | None => acc end).
  { induction F as [|p row H F IH]; intros acc; [reflexivity|]. destruct p; try contradiction.
    match goal with H : cell_fine (VValue ?c ?x) |- _ => destruct c; try contradiction end.
    cbn [fold_left named flat_map app last_for]. rewrite IH. fold (named row). destruct (last_for c (named row)); [reflexivity|].
    now destruct (seqb c s). }
  assert (V : forall x, last_for c (named row) = Some x -> value_ok b x /\ literal_of b x <> None).
  { clear G. induction F as [|p row H F IH]; intros x X; [discriminate|]. destruct p; try contradiction.
    match goal with H : cell_fine (VValue ?c ?x) |- _ => destruct c; try contradiction; destruct H as [_ [_ [H1 H2]]] end.
    cbn [named flat_map app last_for] in X. fold (named row) in X. destruct (last_for c (named row)) as [y|].
    - injection X as <-. now apply IH.
    - destruct (seqb c s); [|discriminate]. injection X as <-. now split. }
  unfold row_value. rewrite G. split; [reflexivity|]. unfold row_asked. destruct (last_for c (named row)) as [x|].
  - destruct (V x eq_refl) as [V1 V2]. split; [exact V1|]. destruct (literal_of b x); [reflexivity|contradiction].
  - split; [exact Logic.I|reflexivity].
Qed.
Lemma literal_list : forall ls, Forall literal_good ls -> Forall2 (reads p_literal dot) (map (literal_lexemes b) ls) ls.
Proof. intros ls F. induction F; constructor; auto. now apply literal_reads. Qed.
Lemma row_tells : forall cols row t, cols <> [] -> Forall cell_fine row -> row_str E r cols row = Ok t ->
  exists ls, tells t ls /\ reads (p_bracketed p_literal) [] ls (map (row_asked b row) cols).
Proof.
  intros cols row t NE F T. unfold row_str in T.
  destruct (mapM (fun c => sqlvalue E r (row_value row c)) cols) as [ts|] eqn:M; [|discriminate]. cbn [bind] in T. injection T as <-.
  set (ls := map (row_asked b row) cols).
  assert (X : Forall2 tells ts (map (literal_lexemes b) ls) /\ Forall literal_good ls).
  { subst ls. clear NE. revert ts M. induction cols as [|c cols IH]; intros ts M.
    - injection M as <-. split; constructor.
    - cbn [mapM] in M. destruct (sqlvalue E r (row_value row c)) as [u|] eqn:U; [|discriminate]. cbn [bind] in M.
      destruct (mapM (fun c => sqlvalue E r (row_value row c)) cols) as [us|]; [|discriminate]. cbn [bind] in M. injection M as <-.
      destruct (IH us eq_refl) as [I1 I2]. destruct (row_value_last row c F) as [_ [V L]].
      destruct (value_tells E _ _ u V L U) as [T G]. split; constructor; assumption. }
  destruct X as [X1 X2]. exists (XSym 40 :: joinx [XSym 44] (map (literal_lexemes b) ls) ++ [XSym 41]). split.
  - apply (tells_paren d Hd). apply (tells_join d Hd 44 [32]); [reflexivity|split; reflexivity| |exact X1].
    intros ->. subst ls. destruct cols; [contradiction|]. inversion X1.
  - apply bracketed_reads with (bad := dot); [now apply literal_list| |cbn; intuition discriminate|cbn; intuition discriminate]. subst ls. destruct cols; [contradiction|discriminate].
Qed.
Lemma insert_understood : forall q t, insert_fine b q -> r (VInsert q) = Ok t ->
  exists st, understood d t = Some st /\ says_insert b q st.
Proof.
  intros [re ig tabs rows dup cf upd] t [[n [Ht Hn]] [Hdp [Hup [NR [NC Hr]]]]] T. cbn [i_tabs i_dup i_upd i_rows] in *. subst tabs dup upd.
  rewrite text_unfold in T. cbn [str_body] in T. unfold insert_str in T. cbn [i_replace i_ignore i_tabs i_rows i_dup i_conflict i_upd is_nilb negb] in T.
  destruct (part_ctx ig (Ok (lit "IGNORE"))) as [x_i|] eqn:Q_i; [|discriminate]. cbn [bind part_ctx] in T.
  destruct (tables_str E r [] [MkTable n VNone []]) as [x_t|] eqn:Q_t; [|discriminate]. cbn [bind] in T.
  rewrite nilb_false in T by exact NR. cbn [negb part_ctx] in T.
  destruct (rows_str E r rows) as [x_r|] eqn:Q_r; [|discriminate]. cbn [bind] in T. injection T as <-.
  assert (Tn : sqlref E r n = Ok x_t).
  { unfold tables_str, mapM, table_str in Q_t. cbn [tb_name tb_alias tb_joins aliased_str truthy is_nilb] in Q_t.
    destruct (sqlref E r n) as [u|e]; cbn in Q_t; [|discriminate Q_t]. injection Q_t as <-. reflexivity. }
  destruct (name_tells E n x_t Hn Tn) as [p [P [NP Tp]]].
  (* the columns *)
  unfold rows_str, all_columns in Q_r.
  assert (Fc : Forall cell_fine (List.concat rows)).
  { apply Forall_forall. intros x I. apply in_concat in I. destruct I as [row [I1 I2]]. rewrite Forall_forall in Hr.
    specialize (Hr row I1). rewrite Forall_forall in Hr. now apply Hr. }
  rewrite cells_columns in Q_r by exact Fc. cbn [bind] in Q_r.
  set (cols := ssort (suniq (map fst (named (List.concat rows))))) in *.
  assert (Ic : forall c, In c cols <-> In c (map fst (named (List.concat rows)))).
  { intros c. subst cols. rewrite ssort_in. apply suniq_in. }
  assert (Nd : NoDup cols).
  { subst cols. eapply Permutation_NoDup; [symmetry; apply ssort_permutation|apply suniq_nodup]. }
  assert (Nc : cols <> []).
  { destruct (List.concat rows) as [|x l] eqn:Q; [contradiction|]. inversion Fc as [|? ? H _]; subst. destruct x; try contradiction.
    match goal with H : cell_fine (VValue ?c ?x) |- _ => destruct c; try contradiction end.
    intros Y. rewrite Y in Ic. apply (Ic s). cbn. now left. }
  assert (Gc : forall c, In c cols -> good_name (quote_of b) c /\ name_segments c = [c]).
  { intros c I. apply Ic in I. clear - I Fc. induction Fc as [|x l H F IH]; [contradiction|]. destruct x; try contradiction.
    match goal with H : cell_fine (VValue ?c ?x) |- _ => destruct c; try contradiction; destruct H as [H1 [H2 _]] end.
    cbn in I. destruct I as [<-|I]; [now split|]. now apply IH. }
  clearbody cols.
  destruct (mapM (row_str E r cols) rows) as [ts|] eqn:M; [|discriminate]. cbn [bind] in Q_r. injection Q_r as <-.
  assert (Tc : Forall2 tells (map (reference b) cols) (map path_lexemes (map (fun c => [c]) cols))).
  { clear - Gc. induction cols as [|c cols IH]; constructor.
    - destruct (Gc c (or_introl eq_refl)) as [G1 G2]. pose proof (tells_name E c G1) as Q. rewrite G2 in Q. exact Q.
    - apply IH. intros c' I. apply Gc. now right. }
  assert (Rc : Forall2 (reads p_column dot) (map path_lexemes (map (fun c => [c]) cols)) (map (fun c => [c]) cols)).
  { apply paths_read. apply Forall_forall. intros x I. apply in_map_iff in I. destruct I as [c [<- _]]. discriminate. }
  assert (Rows : exists lss, Forall2 tells ts lss /\ Forall2 (reads (p_bracketed p_literal) []) lss (map (fun row => map (row_asked b row) cols) rows)).
  { clear - M Hr Nc. revert ts M. induction rows as [|row rows IH]; intros ts M.
    - injection M as <-. exists []. split; constructor.
    - cbn [mapM] in M. destruct (row_str E r cols row) as [u|] eqn:U; [|discriminate]. cbn [bind] in M.
      destruct (mapM (row_str E r cols) rows) as [us|]; [|discriminate]. cbn [bind] in M. injection M as <-.
      inversion Hr as [|? ? H1 H2]; subst. destruct (IH H2 us eq_refl) as [lss [I1 I2]]. destruct (row_tells cols row u Nc H1 U) as [ls [T R]].
      exists (ls :: lss). split; cbn [map]; constructor; assumption. }
  destruct Rows as [lss [Tr Rr]].
  set (st := StInsert re ig p (map (fun c => [c]) cols) (map (fun row => map (row_asked b row) cols) rows)).
  exists st. split; [|apply si; [exact P|exact Nd| |]].
  2: { intros c. rewrite Ic. apply named_concat. }
  2: { clear. induction rows; cbn [map]; constructor; auto. }
  set (kw := if re then lit "REPLACE" else lit "INSERT"). fold kw.
  set (lc := XSym 40 :: joinx [XSym 44] (map path_lexemes (map (fun c => [c]) cols)) ++ [XSym 41]).
  set (li := if ig then map XWord [lit "IGNORE"] else []).
  assert (Nts : ts <> []).
  { intros ->. destruct rows; [contradiction|]. inversion Tr; subst. inversion Rr. }
  assert (Nls : lss <> []) by (intros ->; inversion Tr; subst; contradiction).
  assert (Tv : tells (paren (sjoin (lit ", ") (map (reference b) cols)) ++ lit " VALUES " ++ sjoin (lit ", ") ts)
    (lc ++ XWord (lit "VALUES") :: joinx [XSym 44] lss)).
  { apply (Mid _ _ c_sp (lit "VALUES ") [XWord (lit "VALUES")]); [|reflexivity|split; reflexivity|].
    - apply (tells_paren d Hd). apply (tells_join d Hd 44 [32]); [reflexivity|split; reflexivity| |exact Tc].
      destruct cols; [contradiction|discriminate].
    - apply (tells_join d Hd 44 [32]); [reflexivity|split; reflexivity|exact Nts|exact Tr]. }
  pose proof (ignore_part E ig x_i Q_i) as Pi. fold li in Pi.
  set (vt := paren (sjoin (lit ", ") (map (reference b) cols)) ++ lit " VALUES " ++ sjoin (lit ", ") ts) in *.
  set (ll := XWord kw :: li ++ XWord (lit "INTO") :: path_lexemes p ++ lc ++ XWord (lit "VALUES") :: joinx [XSym 44] lss).
  assert (Tk : tells kw [XWord kw]) by (subst kw; destruct re; apply (word_tells E); reflexivity).
  assert (Ps : p_statement ll = Some (st, [])).
  { assert (Ki : seqb kw (lit "SELECT") = false /\ seqb kw (lit "DELETE") = false /\ seqb kw (lit "UPDATE") = false /\
        seqb kw (lit "INSERT") || seqb kw (lit "REPLACE") = true /\ seqb kw (lit "REPLACE") = re) by (subst kw; destruct re; repeat split; reflexivity).
    destruct Ki as [K1 [K2 [K3 [K4 K5]]]]. subst ll. unfold p_statement. rewrite K1, K2, K3, K4, K5.
    subst li. rewrite (flag_reads (lit "IGNORE") [] ig) by (cbn; intuition discriminate).
    cbn [keyword]. rewrite seqb_refl. rewrite (proj2 (column_reads p NP)) by (subst lc; cbn; intuition discriminate).
    assert (R1 : reads (p_bracketed p_column) [] lc (map (fun c => [c]) cols)).
    { apply bracketed_reads with (bad := dot); [exact Rc| | |]; [|cbn; intuition discriminate|cbn; intuition discriminate].
      destruct cols; [contradiction|discriminate]. }
    rewrite (proj2 R1) by apply stops_nil. cbn [keyword]. rewrite seqb_refl.
    pose proof (list_reads _ _ [] _ _ Rr Nls (fun x => x)) as R2. pose proof (proj2 R2 [] Logic.I) as R3. rewrite app_nil_r in R3. rewrite R3. reflexivity. }
  assert (Tt : tells (kw ++ x_i ++ lit " INTO" ++ (c_sp :: x_t) ++ (c_sp :: vt)) ll).
  { pose proof (tells_parts E [x_i; lit " INTO"; c_sp :: x_t; c_sp :: vt] [li; [XWord (lit "INTO")]; path_lexemes p; lc ++ XWord (lit "VALUES") :: joinx [XSym 44] lss]) as Q.
    specialize (Q ltac:(repeat (constructor; [first [assumption|now apply part_some|exact (part_some d _ _ (word_tells E (lit "INTO") eq_refl))]|]); constructor)
      kw [XWord kw] Tk). cbn [List.concat] in Q. rewrite !app_nil_r in Q. exact Q. }
  assert (U := understood_text E kw _ ll st ltac:(subst kw; destruct re; reflexivity) Tt Ps).
  transitivity (understood d (strip (c_sp :: kw ++ x_i ++ lit " INTO" ++ (c_sp :: x_t) ++ (c_sp :: vt)))); [|exact U].
  f_equal. f_equal. subst vt kw. rewrite !app_nil_r. reflexivity.
Qed.

(** ** Execution *)
Lemma kept_selected : forall sv conds o rw, says_conditions b conds o -> kept (compare sv) (cell sv rw) o = selected b sv conds rw.
Proof.
  intros sv conds o rw S. unfold selected. destruct conds as [|c conds], o as [e|]; try contradiction; [reflexivity|].
  cbn [kept]. now rewrite S.
Qed.
Lemma delete_effect : forall sv db q n p t, d_tabs q = [] -> d_refs q = [MkTable n VNone []] -> name_ok b n -> path_of n = Some p ->
  Forall (cond_ok b) (d_where q) -> r (VDelete q) = Ok t ->
  exists st db', understood d t = Some st /\ execute sv st db = Some db' /\
    db' p = filter (fun rw => negb (selected b sv (d_where q) rw)) (db p) /\ forall p', p' <> p -> db' p' = db p'.
Proof.
  intros sv db q n p t Hdt Hdr Hn P Hw T.
  destruct (delete_understood E q t) as [st [U S]]; [|exact T|].
  { split; [rewrite Hdt; constructor|]. rewrite Hdr. split; [discriminate|]. split; [|exact Hw].
    constructor; [|constructor]. repeat split; cbn; auto. left; cbn; lia. }
  exists st. inversion S as [ig tabs refs wh al tabs' refs' wh' S1 S2 S3]; subst. cbn [d_tabs d_refs d_where] in *. subst tabs refs.
  inversion S1; subst. inversion S2 as [|? y ? ? St S2']; subst. inversion S2'; subst.
  inversion St as [n' a js p' o l P' A J]; subst. cbn in A. subst o. inversion J; subst. rewrite P in P'. injection P' as <-.
  eexists. split; [exact U|]. split; [reflexivity|]. split.
  - rewrite change_here. apply filter_ext. intros rw. now rewrite (kept_selected sv wh).
  - intros p' N. now apply change_other.
Qed.
Lemma assigned_same : forall vs ys, Forall2 (says_assignment b) vs ys -> map (fun a => (column_of (fst a), snd a)) ys = assigned b vs.
Proof.
  intros vs ys F. induction F as [|v y vs ys S F IH]; [reflexivity|]. inversion S as [c x p l P L]; subst.
  cbn [map assigned flat_map]. rewrite P, L. cbn [app fst snd]. f_equal. exact IH.
Qed.
Lemma update_effect : forall sv db q n p t, u_tabs q = [MkTable n VNone []] -> path_of n = Some p ->
  update_fine b q -> r (VUpdate q) = Ok t ->
  exists st db', understood d t = Some st /\ execute sv st db = Some db' /\
    Forall2 (fun old new => forall c, new c =
      if selected b sv (u_where q) old
      then match last_for c (assigned b (u_vals q)) with Some l => l | None => old c end
      else old c) (db p) (db' p) /\
    forall p', p' <> p -> db' p' = db p'.
Proof.
  intros sv db q n p t Hu P F T. destruct (update_understood E q t F T) as [st [U S]].
  exists st. inversion S as [ig tabs vs wh al tabs' vs' wh' S1 S2 S3]; subst. cbn [u_tabs u_vals u_where] in *. subst tabs.
  inversion S1 as [|? y ? ? St S1']; subst. inversion S1'; subst.
  inversion St as [n' a js p' o l P' A J]; subst. cbn in A. subst o. inversion J; subst. rewrite P in P'. injection P' as <-.
  eexists. split; [exact U|]. split; [reflexivity|]. split.
  - rewrite change_here. induction (db p) as [|rw l IH]; cbn [map]; constructor; [|exact IH]. intros c.
    rewrite (kept_selected sv wh) by exact S3. destruct (selected b sv wh rw); [|reflexivity].
    rewrite fold_store. now rewrite (assigned_same vs vs').
  - intros p' N. now apply change_other.
Qed.
Lemma insert_effect : forall sv db q n p t, i_replace q = false -> i_tabs q = [MkTable n VNone []] -> path_of n = Some p ->
  insert_fine b q -> r (VInsert q) = Ok t ->
  exists st db' new, understood d t = Some st /\ execute sv st db = Some db' /\
    db' p = db p ++ new /\ Forall2 (fun row rw => forall c, rw c = row_asked b row c) (i_rows q) new /\
    forall p', p' <> p -> db' p' = db p'.
Proof.
  intros sv db q n p t Hre Hi P F T. destruct (insert_understood q t F T) as [st [U S]].
  inversion S as [re ig n' rows cf p' cols rows' P' Nd Ic Fr]; subst. cbn [i_tabs i_rows i_replace] in *. subst re. injection Hi as ->.
  rewrite P in P'. injection P' as <-.
  eexists _, _, (map (fill (map (fun c => [c]) cols)) rows'). split; [exact U|]. split; [reflexivity|]. split; [apply change_here|]. split.
  - assert (Ic' : forall row, In row rows -> forall c, In c (map fst (named row)) -> In c cols) by (intros; apply Ic; eauto).
    clear - Fr Ic'. induction Fr as [|row l rows rows' H Fr IH]; cbn [map]; constructor.
    + intros c. subst l. rewrite fill_columns. destruct (existsb (seqb c) cols) eqn:X; [reflexivity|].
      unfold row_asked. rewrite last_for_none; [reflexivity|]. intros Y. apply (Ic' row (or_introl eq_refl)) in Y. apply in_seqb in Y. congruence.
    + apply IH. intros row' I. apply Ic'. now right.
  - intros p' N. now apply change_other.
Qed.
End Execution.
