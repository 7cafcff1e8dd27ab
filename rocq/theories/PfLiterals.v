(** Property-level lemmas about values and references (used by Prop_Values.v). *)
From Coq Require Import Lia ZifyBool ZifyN QArith Qabs.
From Verif Require Import Base BaseFacts NumFmt Value Regex Backend Eq Render RenderFacts
  SpecLex SpecRead SpecRef LiteralFacts RefFacts.
Open Scope N_scope.

Lemma text_V : forall E v, text E (VSqlV v) = sqlvalue E (text E) v.
Proof. intros. now rewrite text_unfold. Qed.
Lemma text_R : forall E v, text E (VSqlR v) = sqlref E (text E) v.
Proof. intros. now rewrite text_unfold. Qed.
Lemma not_ref : forall b s, ~ reference_shaped (quote_of b) s -> is_reference b s = false.
Proof.
  intros b s H. destruct (is_reference b s) eqn:E; [|reflexivity]. apply is_reference_ok in E. contradiction.
Qed.
Lemma text_V_str : forall E s, ~ reference_shaped (quote_of (e_be E)) s ->
  text E (VSqlV (VStr s)) = Ok (39 :: flat_map esc s ++ [39]).
Proof.
  intros E s H. rewrite text_V. cbn [sqlvalue]. unfold sql_string. rewrite (not_ref _ _ H), escape_flat. reflexivity.
Qed.
Lemma nqf_not_first : forall q rest, (q = 39 \/ q = 34 \/ q = 96) -> no_quote_first rest -> not_first q rest.
Proof. intros q rest Hq H r ->. destruct (H q r eq_refl) as [H1 [H2 H3]]. intuition congruence. Qed.
Lemma lex_open_str : forall d x, lex d LCode (39 :: x) = lex d (LStr 39 (d_backslash d) []) x.
Proof. reflexivity. Qed.

Lemma string_literal_bs : forall E s, ~ reference_shaped (quote_of (e_be E)) s ->
  exists t, text E (VSqlV (VStr s)) = Ok t /\
  forall rest, no_quote_first rest -> tokens mysql_sql (t ++ rest) = TStr s :: tokens mysql_sql rest.
Proof.
  intros E s H. eexists. split; [now apply text_V_str|]. intros rest Hr. unfold tokens.
  cbn [app]. rewrite lex_open_str, <- app_assoc. cbn [app].
  rewrite lex_escaped_bs; [reflexivity|]. apply nqf_not_first; auto.
Qed.
Lemma string_literal_std : forall E d s, d = standard_sql \/ d = postgres_sql ->
  ~ reference_shaped (quote_of (e_be E)) s ->
  exists t s', text E (VSqlV (VStr s)) = Ok t /\
  (forall rest, no_quote_first rest -> tokens d (t ++ rest) = TStr s' :: tokens d rest) /\
  (s' = s <-> ~ In 92 s /\ ~ In 10 s).
Proof.
  intros E d s Hd H. exists (39 :: flat_map esc s ++ [39]), (flat_map den s).
  split; [now apply text_V_str|]. split; [|apply den_same].
  intros rest Hr. unfold tokens. cbn [app]. rewrite lex_open_str, <- app_assoc. cbn [app].
  replace (d_backslash d) with false by (destruct Hd as [->| ->]; reflexivity).
  rewrite lex_escaped_std; [reflexivity|]. apply nqf_not_first; auto.
Qed.

Lemma value_text_total : forall E s, exists t, text E (VSqlV (VStr s)) = Ok t.
Proof. intros E s. rewrite text_V. cbn [sqlvalue]. eauto. Qed.

Lemma dialect_cases : forall b, (dialect_of b = mysql_sql) \/ (dialect_of b = standard_sql \/ dialect_of b = postgres_sql).
Proof. destruct b; simpl; auto. Qed.

Lemma value_never_code : forall E s t, ~ doubled (quote_of (e_be E)) s ->
  text E (VSqlV (VStr s)) = Ok t ->
  (exists s', forall rest, no_quote_first rest ->
     tokens (dialect_of (e_be E)) (t ++ rest) = TStr s' :: tokens (dialect_of (e_be E)) rest)
  \/ (exists segs, forall rest, no_quote_first rest ->
     tokens (dialect_of (e_be E)) (t ++ rest) = path_tokens segs ++ tokens (dialect_of (e_be E)) rest).
Proof.
  intros E s t D Ht. destruct (is_reference (e_be E) s) eqn:R.
  - right. pose proof R as R'. apply is_reference_ok in R'.
    destruct (reference_clean _ _ R' D) as [segs [E1 H1]].
    rewrite text_V in Ht. cbn [sqlvalue] in Ht. unfold sql_string in Ht. rewrite R, E1 in Ht. injection Ht as <-.
    exists segs. intros rest Hr. unfold tokens. apply lex_path; [exact H1|].
    apply nqf_not_first; [destruct (e_be E); auto|exact Hr].
  - left. assert (R' : ~ reference_shaped (quote_of (e_be E)) s) by (rewrite <- is_reference_ok; congruence).
    destruct (dialect_cases (e_be E)) as [-> | Hd].
    + destruct (string_literal_bs E s R') as [t' [Ht' H]]. exists s. intros rest Hr. rewrite Ht in Ht'.
      injection Ht' as ->. now apply H.
    + destruct (string_literal_std E _ s Hd R') as [t' [s' [Ht' [H _]]]]. exists s'. intros rest Hr.
      rewrite Ht in Ht'. injection Ht' as ->. now apply H.
Qed.

Lemma identifier_quoting : forall E n, ~ In (quote_of (e_be E)) n ->
  exists t, text E (VSqlR (VStr n)) = Ok t /\
  (forall rest, no_quote_first rest ->
     tokens (dialect_of (e_be E)) (t ++ rest)
     = path_tokens (name_segments n) ++ tokens (dialect_of (e_be E)) rest).
Proof.
  intros E n H. eexists. split; [rewrite text_R; reflexivity|]. intros rest Hr.
  rewrite reference_noquote by exact H. unfold tokens. apply lex_path.
  - intros x Hx. apply name_segments_ok in Hx. destruct Hx as [_ [_ Hx]]. auto.
  - apply nqf_not_first; [destruct (e_be E); auto|exact Hr].
Qed.

Lemma reference_twice : forall E n t, ~ In (quote_of (e_be E)) n ->
  text E (VSqlR (VStr n)) = Ok t -> text E (VSqlR (VStr t)) = Ok t.
Proof.
  intros E n t H Ht. rewrite text_R in *. cbn [sqlref] in *. injection Ht as <-. f_equal. now apply reference_idem.
Qed.

Lemma which_references : forall E s,
  (reference_shaped (quote_of (e_be E)) s -> text E (VSqlV (VStr s)) = text E (VSqlR (VStr s))) /\
  (reference_shaped (quote_of (e_be E)) s <-> ~ exists t, text E (VSqlV (VStr s)) = Ok (39 :: t)).
Proof.
  intros E s. split.
  - intros H. rewrite text_V, text_R. cbn [sqlvalue sqlref]. unfold sql_string.
    apply is_reference_ok in H. now rewrite H.
  - split.
    + intros H [t Ht]. rewrite text_V in Ht. cbn [sqlvalue] in Ht. unfold sql_string in Ht.
      apply is_reference_ok in H. rewrite H in Ht. injection Ht as Ht. now apply reference_not_sq in Ht.
    + intros H. rewrite <- is_reference_ok. destruct (is_reference (e_be E) s) eqn:R; [reflexivity|].
      destruct H. exists (flat_map esc s ++ [39]). apply text_V_str. rewrite <- is_reference_ok. congruence.
Qed.
Lemma inside_has_quote : forall q m, reference_path q m -> In q m.
Proof.
  assert (Q : forall q a, quoted_ident q a -> In q a) by (intros q a H; destruct H; now left).
  intros q m H. destruct H; rewrite ?in_app_iff; eauto.
Qed.
Lemma no_quote_is_value : forall q s, ~ In q s -> ~ reference_shaped q s.
Proof.
  intros q s H [m [[l [r [-> _]]] P]]. apply H. apply inside_has_quote in P. rewrite !in_app_iff. auto.
Qed.

Lemma int_exact : forall E z, exists t, text E (VSqlV (VInt z)) = Ok t /\ read_int t = Some z /\ canonical_int t.
Proof.
  intros E z. eexists. split; [rewrite text_V; reflexivity|]. split; [apply z_dec_read|apply z_dec_canonical].
Qed.
Lemma bool_text : forall E b, text E (VSqlV (VBool b)) =
  Ok (match e_be E with
      | BPostgres => if b then lit "true" else lit "false"
      | _ => if b then lit "1" else lit "0"
      end).
Proof. intros E b. rewrite text_V. cbn [sqlvalue]. destruct (e_be E), b; reflexivity. Qed.

Lemma float_five : forall E v x, (v = VFloat x \/ v = VDec x) -> forall q, num_value x = Some q ->
  exists t w, text E (VSqlV v) = Ok t /\ read_decimal t = Some w /\ decimals t = Some 5%nat
    /\ (Qabs (w - q) <= 5 # 1000000)%Q.
Proof.
  intros E v x Hv q Hq.
  assert (T : exists dec, text E (VSqlV v) = Ok (fmt5 dec x)).
  { destruct Hv as [->| ->]; rewrite text_V; eexists; reflexivity. }
  destruct T as [dec T]. destruct (fmt5_read dec x q Hq) as [w [H1 H2]].
  exists (fmt5 dec x), w. repeat split; auto. eapply fmt5_decimals; eauto.
Qed.

Lemma bytes_lossless : forall E b, Forall (fun x => x < 256) b ->
  exists t pre h, text E (VSqlV (VBytes b)) = Ok t /\
    (forall rest, no_quote_first rest ->
       tokens (dialect_of (e_be E)) (t ++ rest) = TCode pre :: TStr h :: tokens (dialect_of (e_be E)) rest) /\
    match e_be E with
    | BPostgres => pre = 69 /\ exists h', h = 92 :: 120 :: h' /\ unhex h' = Some b
    | _ => pre = 120 /\ unhex h = Some b
    end.
Proof.
  intros E b Hb. exists (be_bytes (e_be E) b).
  exists (match e_be E with BPostgres => 69 | _ => 120 end).
  exists (match e_be E with BPostgres => 92 :: 120 :: hexlify b | _ => hexlify b end).
  split; [rewrite text_V; reflexivity|]. pose proof (hexlify_unhex b Hb) as U.
  split; [|destruct (e_be E); eauto].
  intros rest Hr. pose proof (hexlify_chars b Hb) as C.
  assert (Hn : not_first 39 rest) by (apply nqf_not_first; auto).
  unfold tokens. destruct (e_be E); unfold be_bytes.
  1,2,4: cbn [app]; rewrite <- app_assoc; cbn [app dialect_of];
    match goal with |- lex ?d LCode (120 :: c_sq :: ?x) = _ =>
      change (lex d LCode (120 :: c_sq :: x)) with (TCode 120 :: lex d (LStr 39 (d_backslash d) []) x) end;
    f_equal; change c_sq with 39; now rewrite lex_plain.
  cbn [app]. rewrite <- app_assoc. cbn [app dialect_of].
  match goal with |- lex ?d LCode (69 :: c_sq :: c_bs :: c_bs :: 120 :: ?x) = _ =>
    change (lex d LCode (69 :: c_sq :: c_bs :: c_bs :: 120 :: x)) with (TCode 69 :: lex d (LStr 39 true [92; 120]) x) end.
  f_equal. change c_sq with 39. now rewrite lex_plain.
Qed.

Lemma date_literal : forall E d, valid_date d -> exists t s, text E (VSqlV (VDate d)) = Ok t /\
  (forall rest, no_quote_first rest ->
    tokens (dialect_of (e_be E)) (t ++ rest) = TStr s :: tokens (dialect_of (e_be E)) rest) /\
  read_iso_date s = Some d.
Proof.
  intros E d H. exists ([c_sq] ++ date_iso d ++ [c_sq]), (date_iso d).
  split; [rewrite text_V; reflexivity|]. split; [|now apply date_iso_read].
  intros rest Hr. unfold tokens. cbn [app]. change c_sq with 39. rewrite lex_open_str, <- app_assoc. cbn [app].
  rewrite lex_plain; [reflexivity|apply date_chars|apply nqf_not_first; auto].
Qed.
Lemma datetime_literal : forall E d tm, valid_date d -> valid_time tm ->
  exists t s, text E (VSqlV (VDatetime d tm)) = Ok t /\
  (forall rest, no_quote_first rest ->
    tokens (dialect_of (e_be E)) (t ++ rest) = TStr s :: tokens (dialect_of (e_be E)) rest) /\
  read_iso_datetime s = Some (d, tm).
Proof.
  intros E d tm Hd Ht. exists ([c_sq] ++ datetime_iso d tm ++ [c_sq]), (datetime_iso d tm).
  split; [rewrite text_V; reflexivity|]. split; [|now apply datetime_iso_read].
  intros rest Hr. unfold tokens. cbn [app]. change c_sq with 39. rewrite lex_open_str, <- app_assoc. cbn [app].
  rewrite lex_plain; [reflexivity|apply datetime_chars|apply nqf_not_first; auto].
Qed.

(** Sequences. *)
Lemma Forall2_imp : forall A B (P Q : A -> B -> Prop), (forall a b, P a b -> Q a b) ->
  forall l m, Forall2 P l m -> Forall2 Q l m.
Proof. intros A B P Q H l m F. induction F; constructor; auto. Qed.
Lemma mapM_Forall2 : forall A B (f : A -> res B) l ts, mapM f l = Ok ts <-> Forall2 (fun x t => f x = Ok t) l ts.
Proof.
  intros A B f l; induction l as [|x l IH]; intros ts; simpl.
  - split; intros H; [injection H as <-; constructor|inversion H; reflexivity].
  - split.
    + destruct (f x) eqn:E; [|discriminate]. destruct (mapM f l) eqn:F; [|discriminate].
      intros H. injection H as <-. constructor; [exact E|]. now apply IH.
    + intros H. inversion H as [|? y ? ys H1 H2]; subst. rewrite H1. apply IH in H2. now rewrite H2.
Qed.
Lemma mapM_err : forall A B (f : A -> res B) l e, mapM f l = Err e -> exists x, In x l /\ f x = Err e.
Proof.
  intros A B f l; induction l as [|x l IH]; simpl; intros e H; [discriminate|].
  destruct (f x) eqn:E; [|injection H as <-; exists x; auto].
  destruct (mapM f l); [discriminate|]. destruct (IH e H) as [y [H1 H2]]. exists y; auto.
Qed.
Lemma seq_elements : forall E k l t, k <> KGen ->
  (text E (VSqlV (VSeq k l)) = Ok t <->
   l <> [] /\ exists ts, Forall2 (fun x tx => text E (VSqlV x) = Ok tx) l ts /\ t = lit "(" ++ sjoin (lit ", ") ts ++ lit ")").
Proof.
  intros E k l t Hk. rewrite text_V. cbn [sqlvalue].
  assert (Tr : truthy (VSeq k l) = negb (is_nilb l)) by (destruct k; try reflexivity; congruence).
  rewrite Tr. destruct l as [|x l].
  - simpl. split; [discriminate|]. intros [H _]. congruence.
  - cbn [is_nilb negb].
    assert (F : forall ts, mapM (sqlvalue E (text E)) (x :: l) = Ok ts <-> Forall2 (fun y ty => text E (VSqlV y) = Ok ty) (x :: l) ts).
    { intros ts. rewrite mapM_Forall2. split; apply Forall2_imp; intros a b; now rewrite text_V. }
    split.
    + destruct (mapM (sqlvalue E (text E)) (x :: l)) as [ts|e] eqn:M; [|discriminate].
      cbn [bind]. intros H. injection H as <-. split; [discriminate|]. exists ts. split; [now apply F|reflexivity].
    + intros [_ [ts [H1 ->]]]. apply F in H1. rewrite H1. reflexivity.
Qed.
Lemma seq_empty : forall E k, k <> KGen -> text E (VSqlV (VSeq k [])) = Err EInvalidArgument.
Proof. intros E k H. rewrite text_V. destruct k; try reflexivity. congruence. Qed.
