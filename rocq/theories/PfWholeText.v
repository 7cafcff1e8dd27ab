(** Proofs for C45: the text of a harmless query has the code of its blank. *)
From Coq Require Import Lia.
From Verif Require Import Base BaseFacts NumFmt Value Regex Backend Eq Render RenderFacts
  SpecLex SpecRef SpecRead RefFacts LiteralFacts PfLiterals PfHistories SpecWhole PfWhole.
Open Scope N_scope.

Section Text.
Context (E : env).
Notation b := (e_be E).
Notation d := (dialect_of b).
Lemma ident_34_96 : d_ident d = 34 \/ d_ident d = 96.
Proof. destruct b; simpl; auto. Qed.
Notation twin := (twin d).
Notation twins := (twins d).
Notation piece := (piece d).
Notation agree := (agree d).
Notation cagree := (cagree d).
Notation clause := (clause d).
Notation Tcode := (twin_code d ident_34_96).
Notation Tlead := (twin_lead d ident_34_96).
Notation Tmid := (twin_mid d ident_34_96).
Notation Ttrail := (twin_trail d ident_34_96).
Notation Tparen := (twin_paren d ident_34_96).

(** ** Leaves *)
Lemma twin_literal : forall x xb s sb, piece x [TStr s] -> piece xb [TStr sb] -> solid x -> solid xb -> twin x xb [s].
Proof.
  intros x xb s sb P Q S1 S2. split; [exact S1|]. split; [exact S2|].
  exists [TStr s], [TStr sb]. repeat split; auto. now repeat constructor.
Qed.
Lemma solid_end : forall x c, is_space c = false -> solid (x ++ [c]).
Proof. intros x c H. now exists x, c. Qed.
Lemma string_piece : forall s, piece (39 :: flat_map esc s ++ [39]) [TStr (as_read d s)].
Proof.
  intros s rest G. unfold tokens. cbn [app]. rewrite lex_open_str, <- app_assoc. cbn [app].
  unfold as_read. destruct (d_backslash d).
  - rewrite lex_escaped_bs; [reflexivity|]. apply nqf_not_first; auto.
  - rewrite lex_escaped_std; [reflexivity|]. apply nqf_not_first; auto.
Qed.
Lemma twin_string : forall s, ~ reference_shaped (quote_of b) s ->
  twin (sql_string b s) (sql_string b blank_string) [as_read d s].
Proof.
  intros s H. unfold sql_string. rewrite (not_ref b s H).
  rewrite (not_ref b blank_string) by (apply no_quote_is_value; destruct b; vm_compute; intuition discriminate).
  rewrite !escape_flat. apply (twin_literal _ _ _ (as_read d blank_string)).
  - apply string_piece. - apply string_piece.
  - apply (solid_end (39 :: flat_map esc s)). reflexivity.
  - apply (solid_end (39 :: flat_map esc blank_string)). reflexivity.
Qed.
Lemma plain_piece : forall s, (forall c, In c s -> c <> 39 /\ c <> 92) -> piece (39 :: s ++ [39]) [TStr s].
Proof.
  intros s H rest G. unfold tokens. cbn [app]. rewrite lex_open_str, <- app_assoc. cbn [app].
  rewrite lex_plain; [reflexivity|exact H|apply nqf_not_first; auto].
Qed.
Lemma twin_plain : forall s, (forall c, In c s -> c <> 39 /\ c <> 92) -> twin ([c_sq] ++ s ++ [c_sq]) ([c_sq] ++ s ++ [c_sq]) [s].
Proof.
  intros s H. pose proof (plain_piece s H). apply (twin_literal _ _ _ s); auto;
  apply (solid_end (39 :: s)); reflexivity.
Qed.
Lemma twin_same : forall x a l, piece x a -> solid x -> literals a = l -> Forall settled a -> twin x x l.
Proof. intros x a l P S1 L F. split; [exact S1|]. split; [exact S1|]. exists a, a. auto. Qed.
Lemma twin_bytes : forall x, Forall (fun c => c < 256) x ->
  twin (be_bytes b x) (be_bytes b x) (match b with BPostgres => [lit "\x" ++ hexlify x] | _ => [hexlify x] end).
Proof.
  intros x H.
  assert (P : piece (be_bytes b x) match b with BPostgres => [TCode 69; TStr (lit "\x" ++ hexlify x)] | _ => [TCode 120; TStr (hexlify x)] end).
  { intros rest G. assert (Hn : not_first 39 rest) by (apply nqf_not_first; auto). pose proof (hexlify_chars x H) as C.
    unfold tokens. destruct b; unfold be_bytes.
    1,2,4: cbn [app]; rewrite <- app_assoc; cbn [app dialect_of];
      match goal with |- lex ?d LCode (120 :: c_sq :: ?x) = _ =>
        change (lex d LCode (120 :: c_sq :: x)) with (TCode 120 :: lex d (LStr 39 (d_backslash d) []) x) end;
      f_equal; change c_sq with 39; now rewrite lex_plain.
    cbn [app]. rewrite <- app_assoc. cbn [app dialect_of].
    match goal with |- lex ?d LCode (69 :: c_sq :: c_bs :: c_bs :: 120 :: ?x) = _ =>
      change (lex d LCode (69 :: c_sq :: c_bs :: c_bs :: 120 :: x)) with (TCode 69 :: lex d (LStr 39 true [92; 120]) x) end.
    f_equal. change c_sq with 39. now rewrite lex_plain. }
  eapply twin_same; [exact P| | |].
  - destruct b; unfold be_bytes; rewrite app_assoc; now apply solid_end.
  - destruct b; reflexivity.
  - destruct b; repeat constructor.
Qed.
Lemma digits_code : forall x, (forall c, In c x -> 48 <= c <= 57 \/ c = 46) -> forallb plainb x = true.
Proof.
  intros x H. apply forallb_forall. intros c Hc. apply H in Hc. unfold plainb. apply negb_true_iff.
  rewrite !orb_false_iff. repeat split; apply N.eqb_neq; lia.
Qed.
Lemma digits_solid : forall x, x <> [] -> (forall c, In c x -> 48 <= c <= 57 \/ c = 46) -> solid x.
Proof.
  intros x NE H. destruct (exists_last NE) as [y [c ->]]. exists y, c. split; [reflexivity|].
  assert (X : 48 <= c <= 57 \/ c = 46) by (apply H; apply in_or_app; right; now left).
  destruct (is_space c) eqn:W; [|reflexivity]. apply whitespace_ok in W. unfold whitespace in W.
  exfalso. revert W X. cbn [In]. intros W X.
  repeat (destruct W as [W|W]; [subst c; lia|]). exact W.
Qed.
Lemma twin_number : forall (neg : bool) x, x <> [] -> (forall c, In c x -> 48 <= c <= 57 \/ c = 46) ->
  twin ((if neg then [45] else []) ++ x) ((if neg then [45] else []) ++ x) [].
Proof.
  intros neg x NE H. pose proof (code_piece d ident_34_96 x (digits_code x H)) as P.
  pose proof (digits_solid x NE H) as S. destruct neg; cbn [app].
  - destruct x as [|c x]; [contradiction|].
    assert (C : (c =? 45) = false). { apply N.eqb_neq. specialize (H c (or_introl eq_refl)). lia. }
    eapply twin_same; [apply minus_piece; [apply ident_34_96|exact C|exact P]| | |].
    + now apply (solid_app [45]).
    + apply (literals_code (45 :: c :: x)).
    + apply (settled_code (45 :: c :: x)).
  - eapply twin_same; [exact P|exact S|apply literals_code|apply settled_code].
Qed.
Lemma twin_int : forall z, twin (z_dec z) (z_dec z) [].
Proof.
  intros z. assert (X : z_dec z = (if (z <? 0)%Z then [45] else []) ++ n_dec (Z.abs_N z)) by (destruct z; reflexivity).
  rewrite X. apply twin_number; [apply n_dec_nonnil|]. intros c Hc. apply n_dec_digits in Hc. auto.
Qed.
Lemma twin_float : forall dec x, twin (fmt5 dec x) (fmt5 dec x) [].
Proof.
  intros dec [neg n p|neg|].
  - unfold fmt5. apply twin_number; [intros X; apply app_eq_nil in X; now destruct (n_dec_nonnil _ (proj1 X))|].
    intros c Hc. rewrite !in_app_iff in Hc. destruct Hc as [Hc|[[<-|[]]|Hc]]; [apply n_dec_digits in Hc; auto|auto|apply fixed_digits in Hc; auto].
  - unfold fmt5. assert (X : forall u, forallb plainb (105 :: u) = true -> is_space (last (105 :: u) 0) = false ->
      twin ((if neg then [45] else []) ++ 105 :: u) ((if neg then [45] else []) ++ 105 :: u) []).
    { intros u H H'. destruct neg; [|now apply Tcode]. cbn [app].
      eapply twin_same; [apply minus_piece; [apply ident_34_96|reflexivity|now apply code_piece, H; apply ident_34_96]| | |].
      - apply (solid_app [45]). exists (removelast (105 :: u)), (last (105 :: u) 0). split; [|exact H']. now apply app_removelast_last.
      - apply (literals_code (45 :: 105 :: u)). - apply (settled_code (45 :: 105 :: u)). }
    destruct dec; [|now apply X]. destruct neg; [|now apply Tcode].
    cbn [app]. eapply twin_same; [apply minus_piece; [apply ident_34_96| |apply code_piece; [apply ident_34_96|]]| | |]; try reflexivity.
    + apply (solid_app [45]). exists (lit "Infinit"), 121. split; reflexivity.
    + repeat constructor.
  - destruct dec; now apply Tcode.
Qed.
Lemma twin_bool : forall x, twin (be_boolean b x) (be_boolean b x) [].
Proof.
  intros x. assert (be_boolean b x = z_dec (if x then 1 else 0)%Z \/ be_boolean b x = if x then lit "true" else lit "false") as [-> | ->].
  - unfold be_boolean. destruct b; auto.
  - apply twin_int.
  - destruct x; now apply Tcode.
Qed.
Lemma twin_name : forall n, good_name (quote_of b) n -> twin (reference b n) (reference b n) [].
Proof.
  intros n [Q NE]. destruct (identifier_quoting E n Q) as [t [T P]]. rewrite text_R in T. cbn [sqlref] in T. injection T as <-.
  assert (ST : forall l, literals (path_tokens l) = [] /\ Forall settled (path_tokens l)).
  { assert (S1 : forall x, literals [segment_token x] = [] /\ settled (segment_token x)).
    { intros x. assert (segment_token x = TCode 42 \/ segment_token x = TId x) as [->| ->]; [|split; simpl; auto|split; simpl; auto].
      unfold segment_token. destruct x as [|c [|? ?]]; auto; destruct c as [|p]; auto; do 6 (destruct p as [p|p|]; auto). }
    induction l as [|x [|y l] IH]; [split; constructor| |].
    - destruct (S1 x). cbn [path_tokens]. split; auto.
    - change (path_tokens (x :: y :: l)) with ([segment_token x] ++ TCode 46 :: path_tokens (y :: l)).
      destruct (S1 x) as [A B]. destruct IH as [C F]. split; [rewrite literals_app, A; exact C|]. constructor; [exact B|]. constructor; [exact Logic.I|exact F]. }
  eapply twin_same; [exact P| |apply ST|apply ST].
  rewrite reference_noquote by exact Q.
  assert (SQ : forall x, solid (quote_part (quote_of b) x)).
  { intros x. unfold quote_part. destruct (seqb x [c_star]) eqn:X; [apply seqb_eq in X; subst; now exists [], 42|].
    apply (solid_end (quote_of b :: x)). destruct b; reflexivity. }
  clear P. induction (name_segments n) as [|x l IH]; [contradiction|]. destruct l as [|y l].
  - cbn [map sjoin]. apply SQ.
  - change (sjoin [46] (map (quote_part (quote_of b)) (x :: y :: l)))
      with (quote_part (quote_of b) x ++ [46] ++ sjoin [46] (map (quote_part (quote_of b)) (y :: l))).
    rewrite app_assoc. apply solid_app, IH. discriminate.
Qed.
End Text.
