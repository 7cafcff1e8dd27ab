(** Proofs for C55-C59: texts as words and symbols. *)
From Coq Require Import Lia.
From Verif Require Import Base BaseFacts NumFmt Value Regex Backend Eq Render RenderFacts
  SpecLex SpecRef SpecRead RefFacts LiteralFacts PfLiterals PfHistories SpecWhole PfWhole PfWholeText SpecSql.
Open Scope N_scope.

Lemma group_flush : forall cur ts,
  match ts with TCode c :: _ => word_char c = false | _ => True end ->
  group cur ts = flush cur ++ group [] ts.
Proof.
  intros cur [|[s|s|c| |] ts] H; try reflexivity; cbn [group flush app].
  - now rewrite app_nil_r.
  - now rewrite H.
Qed.
Definition boundary (ts : list token) : Prop := match ts with TCode c :: _ => word_char c = false | _ => True end.

Section Reads.
Context (d : dialect).
Hypothesis Hd : d_ident d = 34 \/ d_ident d = 96.
Notation piece := (piece d).

(** The text [x] is read as the words and symbols [ls], unless a word continues after it. *)
Definition tells (x : str) (ls : list lexeme) : Prop :=
  solid x /\ exists a, piece x a /\ forall ts, boundary ts -> group [] (a ++ ts) = ls ++ group [] ts.
(** Code between two such texts. *)
Definition between (u : str) (ls : list lexeme) : Prop :=
  leadb u = true /\ forall ts, group [] (map TCode u ++ ts) = ls ++ group [] ts.

Lemma tells_lead : forall u ls x l, between u ls -> tells x l -> tells (u ++ x) (ls ++ l).
Proof.
  intros u ls x l [L G] [S [a [P A]]]. split; [now apply solid_app|]. exists (map TCode u ++ a).
  split; [now apply piece_lead|]. intros ts B. rewrite <- !app_assoc, G, A; auto.
Qed.
Lemma tells_mid : forall x l c u ls y m, tells x l -> word_char c = false -> between (c :: u) ls -> tells y m ->
  tells (x ++ (c :: u) ++ y) (l ++ ls ++ m).
Proof.
  intros x l c u ls y m [_ [a [P A]]] W [L G] [S [a' [P' A']]].
  split; [rewrite app_assoc; now apply solid_app|]. exists (a ++ map TCode (c :: u) ++ a').
  split; [now apply piece_mid|]. intros ts B. rewrite <- !app_assoc. rewrite A by exact W.
  rewrite G, A'; auto.
Qed.
Lemma tells_close : forall x l, tells x l -> tells (x ++ [41]) (l ++ [XSym 41]).
Proof.
  intros x l [_ [a [P A]]]. split; [now exists x, 41|]. exists (a ++ map TCode [41]).
  split; [now apply piece_trail|]. intros ts B. rewrite <- !app_assoc. cbn [map app]. rewrite A by reflexivity.
  reflexivity.
Qed.
Lemma tells_paren : forall x l, tells x l -> tells (paren x) (XSym 40 :: l ++ [XSym 41]).
Proof.
  intros x l T. unfold paren. apply (tells_lead [c_lp] [XSym 40]); [split; reflexivity|]. now apply tells_close.
Qed.
Lemma group_word : forall w cur ts, forallb word_char w = true -> group cur (map TCode w ++ ts) = group (cur ++ w) ts.
Proof.
  induction w as [|c w IH]; intros cur ts H; [now rewrite app_nil_r|]. cbn [forallb] in H. apply andb_true_iff in H.
  cbn [map app group]. rewrite (proj1 H), (IH _ _ (proj2 H)), <- app_assoc. reflexivity.
Qed.
Lemma word_plain : forall c, word_char c = true -> plainb c = true.
Proof.
  intros c H. unfold plainb. apply negb_true_iff. unfold word_char in H.
  destruct (N.eq_dec c 39) as [->|]; [discriminate|]. destruct (N.eq_dec c 34) as [->|]; [discriminate|].
  destruct (N.eq_dec c 96) as [->|]; [discriminate|]. destruct (N.eq_dec c 35) as [->|]; [discriminate|].
  destruct (N.eq_dec c 45) as [->|]; [discriminate|]. destruct (N.eq_dec c 47) as [->|]; [discriminate|].
  rewrite !orb_false_iff. rewrite !N.eqb_neq. tauto.
Qed.
Lemma tells_word : forall w, w <> [] -> forallb word_char w = true -> is_space (last w 0) = false -> tells w [XWord w].
Proof.
  intros w NE H L. split; [|exists (map TCode w); split].
  - exists (removelast w), (last w 0). split; [now apply app_removelast_last|exact L].
  - apply code_piece; [exact Hd|]. apply forallb_forall. intros c Hc. apply word_plain.
    rewrite forallb_forall in H. now apply H.
  - intros ts B. rewrite group_word by exact H. cbn [app]. rewrite group_flush by exact B. now destruct w.
Qed.
Lemma tells_str : forall x s, solid x -> piece x [TStr s] -> tells x [XStr s].
Proof. intros x s S P. split; [exact S|]. exists [TStr s]. split; [exact P|]. reflexivity. Qed.

(** Clauses. *)
Definition part (x : str) (ls : list lexeme) : Prop :=
  (x = [] /\ ls = []) \/ exists y, x = c_sp :: y /\ tells y ls.
Lemma tells_part : forall x l y m, tells x l -> part y m -> tells (x ++ y) (l ++ m).
Proof.
  intros x l y m T [[-> ->]|[z [-> Z]]]; [now rewrite !app_nil_r|].
  apply (tells_mid x l c_sp [] [] z m); auto. split; reflexivity.
Qed.
Lemma part_none : part [] [].
Proof. left; auto. Qed.
Lemma part_some : forall y l, tells y l -> part (c_sp :: y) l.
Proof. intros. right. eauto. Qed.

Lemma tells_lexemes : forall x l, tells x l -> lexemes d x = l.
Proof.
  intros x l [_ [a [P A]]]. unfold lexemes. specialize (P [] (ltac:(intros c r X; discriminate))). rewrite app_nil_r in P.
  rewrite P. specialize (A [] Logic.I). change (tokens d []) with (@nil token). rewrite A. cbn [group flush]. apply app_nil_r.
Qed.

(** Joined with a separator. *)
Fixpoint joinx (sep : list lexeme) (l : list (list lexeme)) : list lexeme :=
  match l with [] => [] | [x] => x | x :: r => x ++ sep ++ joinx sep r end.
Lemma tells_join : forall c u ls ts lss, word_char c = false -> between (c :: u) ls -> ts <> [] ->
  Forall2 tells ts lss -> tells (sjoin (c :: u) ts) (joinx ls lss).
Proof.
  intros c u ls ts lss W B NE F. induction F as [|x l ts lss H F IH]; [contradiction|].
  destruct F as [|y m ts lss H' F]; [exact H|].
  change (sjoin (c :: u) (x :: y :: ts)) with (x ++ (c :: u) ++ sjoin (c :: u) (y :: ts)).
  change (joinx ls (l :: m :: lss)) with (l ++ ls ++ joinx ls (m :: lss)).
  apply tells_mid; auto. apply IH. discriminate.
Qed.
End Reads.

Lemma between_concrete : forall u ls, leadb u = true ->
  (forall ts, group [] (map TCode u ++ ts) = ls ++ group [] ts) -> between u ls.
Proof. intros. now split. Qed.

(** ** Names and literals of the library *)
Fixpoint path_lexemes (p : path) : list lexeme :=
  match p with
  | [] => []
  | [s] => [if seqb s [42] then XSym 42 else XId s]
  | s :: r => (if seqb s [42] then XSym 42 else XId s) :: XSym 46 :: path_lexemes r
  end.
Section Leaves.
Context (E : env).
Notation b := (e_be E).
Notation d := (dialect_of b).
Notation tells := (tells d).
Notation Hd := (ident_34_96 E).

Lemma segment_token_eq : forall s, segment_token s = if seqb s [42] then TCode 42 else TId s.
Proof.
  intros s. unfold segment_token. destruct s as [|c [|c' s]]; try reflexivity.
  - destruct (N.eqb_spec c 42) as [->|N]; [reflexivity|].
    assert (X : seqb [c] [42] = false) by (destruct (seqb [c] [42]) eqn:X; [apply seqb_eq in X; injection X as X; contradiction|reflexivity]). rewrite X.
    destruct c as [|p]; try reflexivity; do 6 (destruct p as [p|p|]; try reflexivity). contradiction.
  - transitivity (TId (c :: c' :: s)).
    + destruct c as [|p]; try reflexivity; do 6 (destruct p as [p|p|]; try reflexivity).
    + destruct (seqb (c :: c' :: s) [42]) eqn:X; [apply seqb_eq in X; discriminate|reflexivity].
Qed.
Lemma path_group : forall p ts, p <> [] -> group [] (path_tokens p ++ ts) = path_lexemes p ++ group [] ts.
Proof.
  induction p as [|s [|s' p] IH]; intros ts NE; [contradiction| |].
  - cbn [path_tokens path_lexemes]. rewrite segment_token_eq. destruct (seqb s [42]); reflexivity.
  - change (path_tokens (s :: s' :: p)) with (segment_token s :: TCode 46 :: path_tokens (s' :: p)).
    change (path_lexemes (s :: s' :: p)) with ((if seqb s [42] then XSym 42 else XId s) :: XSym 46 :: path_lexemes (s' :: p)).
    cbn [app]. rewrite <- IH by discriminate. rewrite segment_token_eq.
    destruct (seqb s [42]); reflexivity.
Qed.
Lemma tells_name : forall n, good_name (quote_of b) n -> tells (reference b n) (path_lexemes (name_segments n)).
Proof.
  intros n [Q NE]. destruct (identifier_quoting E n Q) as [t [T P]]. rewrite text_R in T. cbn [sqlref] in T. injection T as <-.
  destruct (twin_name E n (conj Q NE)) as [S _]. split; [exact S|].
  exists (path_tokens (name_segments n)). split; [exact P|]. intros ts _. now apply path_group.
Qed.
Lemma tells_string : forall s, ~ reference_shaped (quote_of b) s -> tells (sql_string b s) [XStr (as_read d s)].
Proof.
  intros s H. unfold sql_string. rewrite (not_ref b s H), escape_flat. apply tells_str.
  - apply (solid_end (39 :: flat_map esc s)). reflexivity.
  - apply string_piece.
Qed.
Lemma tells_plain : forall s, (forall c, In c s -> c <> 39 /\ c <> 92) -> tells ([c_sq] ++ s ++ [c_sq]) [XStr s].
Proof.
  intros s H. apply tells_str; [apply (solid_end (39 :: s)); reflexivity|]. exact (plain_piece E s H).
Qed.
Lemma digit_space : forall c, 48 <= c <= 57 -> is_space c = false.
Proof.
  intros c X. destruct (is_space c) eqn:W; [|reflexivity]. apply whitespace_ok in W. unfold whitespace in W.
  exfalso. revert W X. cbn [In]. intros W X. repeat (destruct W as [W|W]; [subst c; lia|]). exact W.
Qed.
Lemma tells_digits : forall n, tells (n_dec n) [XWord (n_dec n)].
Proof.
  intros n. apply tells_word; [exact Hd|apply n_dec_nonnil| |].
  - apply forallb_forall. intros c Hc. apply n_dec_digits in Hc. unfold word_char.
    replace (48 <=? c) with true by (symmetry; apply N.leb_le; lia).
    replace (c <=? 57) with true by (symmetry; apply N.leb_le; lia). reflexivity.
  - apply digit_space. apply (n_dec_digits n). 
    destruct (exists_last (n_dec_nonnil n)) as [y [c ->]]. rewrite last_last. apply in_or_app. right. now left.
Qed.
Lemma tells_minus : forall n, tells (45 :: n_dec n) [XSym 45; XWord (n_dec n)].
Proof.
  intros n. destruct (tells_digits n) as [S [a [P A]]].
  split; [now apply (solid_app [45])|].
  assert (X : exists c x, n_dec n = c :: x /\ (c =? 45) = false).
  { pose proof (n_dec_nonnil n) as NE. pose proof (n_dec_digits n) as D. destruct (n_dec n) as [|c x]; [contradiction|].
    exists c, x. split; [reflexivity|]. apply N.eqb_neq. specialize (D c (or_introl eq_refl)). lia. }
  destruct X as [c [x [X C]]]. exists (TCode 45 :: a). rewrite X in *. split; [now apply minus_piece, P; auto using ident_34_96|].
  intros ts B. cbn [app group]. change (word_char 45) with false. cbn match. cbn [flush app]. change (symbol 45) with [XSym 45].
  cbn [app]. now rewrite A.
Qed.
Lemma tells_int : forall z, tells (z_dec z) (if (z <? 0)%Z then [XSym 45; XWord (n_dec (Z.abs_N z))] else [XWord (n_dec (Z.abs_N z))]).
Proof.
  intros z. assert (X : z_dec z = (if (z <? 0)%Z then [45] else []) ++ n_dec (Z.abs_N z)) by (destruct z; reflexivity).
  rewrite X. destruct (z <? 0)%Z; [apply tells_minus|apply tells_digits].
Qed.
Lemma tells_bytes : forall x, Forall (fun c => c < 256) x ->
  tells (be_bytes b x) (match b with BPostgres => [XWord [69]; XStr (lit "\x" ++ hexlify x)] | _ => [XWord [120]; XStr (hexlify x)] end).
Proof.
  intros x H. destruct (twin_bytes E x H) as [S _]. split; [exact S|].
  pose proof (hexlify_chars x H) as C.
  assert (P : piece d (be_bytes b x) match b with BPostgres => [TCode 69; TStr (lit "\x" ++ hexlify x)] | _ => [TCode 120; TStr (hexlify x)] end).
  { intros rest G. assert (Hn : not_first 39 rest) by (apply nqf_not_first; auto).
    unfold tokens. destruct b; unfold be_bytes.
    1,2,4: cbn [app]; rewrite <- app_assoc; cbn [app dialect_of];
      match goal with |- lex ?d LCode (120 :: c_sq :: ?x) = _ =>
        change (lex d LCode (120 :: c_sq :: x)) with (TCode 120 :: lex d (LStr 39 (d_backslash d) []) x) end;
      f_equal; change c_sq with 39; now rewrite lex_plain.
    cbn [app]. rewrite <- app_assoc. cbn [app dialect_of].
    match goal with |- lex ?d LCode (69 :: c_sq :: c_bs :: c_bs :: 120 :: ?x) = _ =>
      change (lex d LCode (69 :: c_sq :: c_bs :: c_bs :: 120 :: x)) with (TCode 69 :: lex d (LStr 39 true [92; 120]) x) end.
    f_equal. change c_sq with 39. now rewrite lex_plain. }
  eexists. split; [exact P|]. intros ts _. destruct b; reflexivity.
Qed.
End Leaves.
