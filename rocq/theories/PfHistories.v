(** Lemmas about histories of calls: C17, C28-C30, C25-C27. *)
From Coq Require Import Lia Sorted.
From Verif Require Import Base BaseFacts NumFmt Value Backend Eq Render RenderFacts ParseArgs Build Queries History
  SpecRead SpecRef SpecHistory LiteralFacts RefFacts PfLiterals.
Open Scope N_scope.

Lemma calls_app : forall Q Op (step : world -> Q -> Op -> Q * outcome) q H1 H2,
  calls step q (H1 ++ H2) = calls step (calls step q H1) H2.
Proof. intros. unfold calls. apply fold_left_app. Qed.
Lemma calls_snoc : forall Q Op (step : world -> Q -> Op -> Q * outcome) q H w op,
  calls step q (H ++ [(w, op)]) = fst (step w (calls step q H) op).
Proof. intros. rewrite calls_app. reflexivity. Qed.

Lemma prefix_refl : forall A (a : list A), prefix a a.
Proof. intros. exists []. now rewrite app_nil_r. Qed.
Lemma prefix_trans : forall A (a b c : list A), prefix a b -> prefix b c -> prefix a c.
Proof. intros A a b c [x ->] [y ->]. exists (x ++ y). now rewrite app_assoc. Qed.
Lemma prefix_snoc : forall A (a : list A) x, prefix a (a ++ [x]).
Proof. intros. now exists [x]. Qed.

Lemma foldE_inv : forall S A (f : S -> A -> S * outcome) (R : S -> S -> Prop),
  (forall s, R s s) -> (forall a b c, R a b -> R b c -> R a c) ->
  forall l, (forall s x, In x l -> R s (fst (f s x))) -> forall s, R s (fst (foldE f s l)).
Proof.
  intros S A f R Rr Rt l. induction l as [|x l IH]; intros Hf s; [apply Rr|]. simpl.
  pose proof (Hf s x (or_introl eq_refl)) as Hx. destruct (f s x) as [s' [u|e]]; simpl in *; [|exact Hx].
  eapply Rt; [exact Hx|]. apply IH. intros. apply Hf. now right.
Qed.
Lemma append_unique_prefix : forall A (eq : A -> A -> res bool) ps x ps',
  append_unique eq ps x = Ok ps' -> ps' = ps \/ ps' = ps ++ [x].
Proof.
  intros A eq ps x ps' H. unfold append_unique in H. destruct (anyM _ ps) as [[]|]; try discriminate;
  simpl in H; injection H as <-; auto.
Qed.
Lemma commit_fst : forall S (s : S) x, fst (commit s x) = match x with Ok s' => s' | Err _ => s end.
Proof. intros. destruct x; reflexivity. Qed.
Lemma add_prefix : forall A B (eq : A -> A -> res bool) (mk : B -> res A) ps b,
  prefix ps (fst (commit ps (do x <- mk b; append_unique eq ps x))).
Proof.
  intros. rewrite commit_fst. destruct (mk b) as [x|]; cbn [bind]; [|apply prefix_refl].
  destruct (append_unique eq ps x) eqn:H; [|apply prefix_refl].
  apply append_unique_prefix in H. destruct H as [->| ->]; [apply prefix_refl|apply prefix_snoc].
Qed.
Lemma where_items_prefix : forall W k ps items,
  prefix ps (fst (foldE (fun s it => let (c, v) := nth2 it in
                 commit s (do x <- mk_condition k c v; append_unique (w_eq W) s x)) ps items)).
Proof.
  intros. apply foldE_inv with (R := fun a b => prefix a b).
  - apply prefix_refl.
  - apply prefix_trans.
  - intros s it _. destruct (nth2 it) as [c v]. apply (add_prefix _ (val * val) (w_eq W) (fun p => mk_condition k (fst p) (snd p)) s (c, v)).
Qed.
Lemma where_prefix : forall W k ps args kwds, prefix ps (fst (conds_where W k ps args kwds)).
Proof.
  intros W k ps args kwds. unfold conds_where.
  assert (P : prefix ps (fst (match parse_args W pair_opts args kwds with
                    | Err e => (ps, Err e)
                    | Ok items =>
                        foldE (fun s it => let (c, v) := nth2 it in
                                 commit s (do x <- mk_condition k c v; append_unique (w_eq W) s x)) ps items
                    end))).
  { destruct (parse_args W pair_opts args kwds); [apply where_items_prefix|apply prefix_refl]. }
  assert (C : prefix ps (fst (foldE (fun s x => commit s (append_unique (w_eq W) s x)) ps args))).
  { apply foldE_inv with (R := fun a b => prefix a b); [apply prefix_refl|apply prefix_trans|].
    intros s x _. apply (add_prefix _ val (w_eq W) (fun y => Ok y) s x). }
  destruct args as [|a [|b r]], kwds as [|kw kws]; cbn [is_nilb negb andb];
    try exact P; try (destruct (forallb is_conds _); [exact C|exact P]).
  destruct (is_sql a); [apply prefix_snoc|exact P].
Qed.

(** C17 *)
Lemma sel_where_prefix : forall H q, prefix (s_where q) (s_where (calls sel_step q H)).
Proof.
  intros H. induction H as [|[W op] H IH]; intros q; [apply prefix_refl|].
  eapply prefix_trans; [|apply IH]. destruct op; try apply prefix_refl. simpl. apply where_prefix.
Qed.
Lemma sel_having_prefix : forall H q, prefix (s_having q) (s_having (calls sel_step q H)).
Proof.
  intros H. induction H as [|[W op] H IH]; intros q; [apply prefix_refl|].
  eapply prefix_trans; [|apply IH]. destruct op; try apply prefix_refl. simpl. apply where_prefix.
Qed.
Lemma upd_where_prefix : forall H q, prefix (u_where q) (u_where (calls upd_step q H)).
Proof.
  intros H. induction H as [|[W op] H IH]; intros q; [apply prefix_refl|].
  eapply prefix_trans; [|apply IH]. destruct q as [ig t v w al].
  destruct op; try apply prefix_refl. simpl. apply where_prefix.
Qed.
Lemma del_where_prefix : forall H q, prefix (d_where q) (d_where (calls del_step q H)).
Proof.
  intros H. induction H as [|[W op] H IH]; intros q; [apply prefix_refl|].
  eapply prefix_trans; [|apply IH]. destruct q as [ig t v w al].
  destruct op; try apply prefix_refl. simpl. apply where_prefix.
Qed.

(** last_such *)
Lemma last_snoc : forall A B (f : A -> option B) l x,
  last_such f (l ++ [x]) = match f x with Some b => Some b | None => last_such f l end.
Proof. intros. unfold last_such. rewrite fold_left_app. reflexivity. Qed.

(** Stripping *)
Lemma lstrip_nonspace : forall c x, is_space c = false -> lstrip (c :: x) = c :: x.
Proof. intros c x H. simpl. now rewrite H. Qed.
Lemma lstrip_app_stop : forall x c y, is_space c = false -> lstrip (x ++ c :: y) = lstrip x ++ c :: y.
Proof.
  induction x as [|d x IH]; intros c y H; simpl; [now rewrite H|].
  destruct (is_space d); [now apply IH|reflexivity].
Qed.
Lemma rstrip_app_stop : forall a c b, is_space c = false -> rstrip (a ++ c :: b) = a ++ c :: rstrip b.
Proof.
  intros a c b H. unfold rstrip. rewrite rev_app_distr. simpl. rewrite <- app_assoc. simpl.
  rewrite lstrip_app_stop by exact H. rewrite rev_app_distr. simpl. rewrite rev_involutive, <- app_assoc. reflexivity.
Qed.
Lemma strip_app_stop : forall d a c b, is_space d = false -> is_space c = false ->
  strip ((d :: a) ++ c :: b) = (d :: a) ++ c :: rstrip b.
Proof.
  intros. unfold strip. change ((d :: a) ++ c :: b) with (d :: (a ++ c :: b)).
  rewrite lstrip_nonspace by assumption. change (d :: a ++ c :: b) with ((d :: a) ++ c :: b).
  now apply rstrip_app_stop.
Qed.
Lemma rstrip_rest : forall s, exists ws, s = rstrip s ++ ws /\ Forall whitespace ws.
Proof. intros s. destruct (rstrip_spec s) as [r [H1 [H2 _]]]. eauto. Qed.

(** ** C28, C29 *)
Lemma del_allow_inv : forall H, d_allow (calls del_step empty_delete H) = true <-> delete_confirmed (map snd H).
Proof.
  intros H. induction H as [|[W op] H IH] using rev_ind.
  - unfold delete_confirmed. simpl. split; discriminate.
  - unfold delete_confirmed in *. rewrite calls_snoc, map_app. cbn [map snd]. rewrite last_snoc.
    destruct (calls del_step empty_delete H) as [ig t r w al]. cbn [d_allow] in IH.
    destruct op; simpl; try exact IH; split; congruence.
Qed.
Lemma upd_allow_inv : forall H, u_allow (calls upd_step empty_update H) = true <-> update_confirmed (map snd H).
Proof.
  intros H. induction H as [|[W op] H IH] using rev_ind.
  - unfold update_confirmed. simpl. split; discriminate.
  - unfold update_confirmed in *. rewrite calls_snoc, map_app. cbn [map snd]. rewrite last_snoc.
    destruct (calls upd_step empty_update H) as [ig t r w al]. cbn [u_allow] in IH.
    destruct op; simpl; try exact IH; split; congruence.
Qed.
Lemma where_nothing : forall W k ps, fst (conds_where W k ps [] []) = ps.
Proof. reflexivity. Qed.
Lemma del_where_origin : forall H, d_where (calls del_step empty_delete H) <> [] ->
  exists W a k, In (W, DWhere a k) H /\ (a <> [] \/ k <> []).
Proof.
  intros H. induction H as [|[W op] H IH] using rev_ind; [simpl; congruence|].
  rewrite calls_snoc. destruct (calls del_step empty_delete H) as [ig t r w al]. intros N.
  destruct op; simpl in N;
    try (destruct (IH N) as [W' [a' [k' [I Q]]]]; exists W', a', k'; split; [apply in_or_app; now left|exact Q]).
  destruct args as [|x xs], kwds as [|y ys].
  - simpl in N. destruct (IH N) as [W' [a' [k' [I Q]]]]; exists W', a', k'; split; [apply in_or_app; now left|exact Q].
  - exists W, [], (y :: ys). split; [apply in_or_app; right; now left|right; discriminate].
  - exists W, (x :: xs), []. split; [apply in_or_app; right; now left|left; discriminate].
  - exists W, (x :: xs), (y :: ys). split; [apply in_or_app; right; now left|left; discriminate].
Qed.
Lemma upd_where_origin : forall H, u_where (calls upd_step empty_update H) <> [] ->
  exists W a k, In (W, UWhere a k) H /\ (a <> [] \/ k <> []).
Proof.
  intros H. induction H as [|[W op] H IH] using rev_ind; [simpl; congruence|].
  rewrite calls_snoc. destruct (calls upd_step empty_update H) as [ig t r w al]. intros N.
  destruct op; simpl in N;
    try (destruct (IH N) as [W' [a' [k' [I Q]]]]; exists W', a', k'; split; [apply in_or_app; now left|exact Q]).
  destruct args as [|x xs], kwds as [|y ys].
  - simpl in N. destruct (IH N) as [W' [a' [k' [I Q]]]]; exists W', a', k'; split; [apply in_or_app; now left|exact Q].
  - exists W, [], (y :: ys). split; [apply in_or_app; right; now left|right; discriminate].
  - exists W, (x :: xs), []. split; [apply in_or_app; right; now left|left; discriminate].
  - exists W, (x :: xs), (y :: ys). split; [apply in_or_app; right; now left|left; discriminate].
Qed.

Lemma conds_keyword : forall r kw ps t, ps <> [] -> kw <> [] -> conds_str r kw ps = Ok t ->
  exists c, conds_str r [] ps = Ok c /\ t = kw ++ [c_sp] ++ c.
Proof.
  intros r kw ps t N K H. unfold conds_str in *. destruct (mapM r ps) as [ts|] eqn:M; [|discriminate].
  cbn [bind] in *. injection H as <-. eexists. split; [reflexivity|]. unfold parts_str.
  destruct ts; [|destruct kw; [congruence|reflexivity]].
  destruct ps; [congruence|]. simpl in M. destruct (r v); [|discriminate]. destruct (mapM r ps); discriminate.
Qed.
Lemma where_tail : forall d a s, is_space d = false ->
  exists rest ws, strip ((d :: a) ++ c_sp :: lit "WHERE" ++ s) = (d :: a) ++ lit " WHERE" ++ rest /\
    s = rest ++ ws /\ Forall whitespace ws.
Proof.
  intros d a s Hd. destruct (rstrip_rest s) as [ws [H1 H2]]. exists (rstrip s), ws. split; [|auto].
  replace ((d :: a) ++ c_sp :: lit "WHERE" ++ s) with ((d :: (a ++ lit " WHER")) ++ 69 :: s)
    by (simpl; rewrite <- app_assoc; reflexivity).
  rewrite strip_app_stop by (auto; reflexivity). simpl. rewrite <- app_assoc. reflexivity.
Qed.

Lemma part_ctx_nil : forall b t x, part_ctx b t = Ok x -> b = false -> x = [].
Proof. intros b t x H ->. injection H as <-. reflexivity. Qed.
Lemma nilb_false : forall A (l : list A), l <> [] -> is_nilb l = false.
Proof. intros A [|x l] H; [congruence|reflexivity]. Qed.

Lemma delete_guard : forall E H, let q := calls del_step empty_delete H in
  (forall t, text E (VDelete q) = Ok t ->
     delete_confirmed (map snd H) \/
     (d_where q <> [] /\ exists W a k, In (W, DWhere a k) H /\ (a <> [] \/ k <> []))) /\
  (d_where q = [] -> ~ delete_confirmed (map snd H) -> text E (VDelete q) = Err EConfirmDelete) /\
  (d_where q <> [] -> forall t, text E (VDelete q) = Ok t ->
     exists pre c rest ws, text E (VConds (d_where q)) = Ok c /\ t = pre ++ lit " WHERE" ++ rest /\
       lit " " ++ c = rest ++ ws /\ Forall whitespace ws).
Proof.
  intros E H q. pose proof (del_allow_inv H) as A. pose proof (del_where_origin H) as O. fold q in A, O. clearbody q.
  rewrite text_unfold. cbn [str_body]. unfold delete_str. split; [|split].
  - intros t Ht. destruct (d_where q) eqn:Q.
    + simpl in Ht. destruct (d_allow q) eqn:Al; [|discriminate]. left. now apply A.
    + right. split; [discriminate|]. apply O. congruence.
  - intros Hw Hc. rewrite Hw. simpl. destruct (d_allow q) eqn:Al; [|reflexivity].
    exfalso. apply Hc. now apply A.
  - intros Hw t Ht. rewrite (nilb_false _ _ Hw) in Ht. cbn [andb negb] in Ht.
    destruct (part_ctx (d_ignore q) _) as [o|]; [|discriminate]. cbn [bind] in Ht.
    destruct (part_ctx _ (tables_str E (text E) [] (d_refs q))) as [r|]; [|discriminate]. cbn [bind] in Ht.
    destruct (part_ctx _ (tables_str E (text E) [] (d_tabs q))) as [tb|]; [|discriminate]. cbn [bind] in Ht.
    unfold part_ctx in Ht. destruct (conds_str (text E) (lit "WHERE") (d_where q)) as [w|] eqn:W; [|discriminate].
    cbn [bind] in Ht. injection Ht as <-.
    destruct (conds_keyword _ (lit "WHERE") _ _ Hw ltac:(discriminate) W) as [c [Hc ->]].
    destruct (where_tail 68 (lit "ELETE" ++ o ++ tb ++ lit " FROM" ++ r) ([c_sp] ++ c) eq_refl) as [rest [ws [S1 [S2 S3]]]].
    exists (68 :: lit "ELETE" ++ o ++ tb ++ lit " FROM" ++ r), c, rest, ws.
    split; [rewrite text_unfold; exact Hc|]. split; [|split; [exact S2|exact S3]].
    etransitivity; [|exact S1]. f_equal. simpl. repeat (rewrite <- app_assoc; simpl). reflexivity.
Qed.
Lemma update_guard : forall E H, let q := calls upd_step empty_update H in
  (forall t, text E (VUpdate q) = Ok t ->
     update_confirmed (map snd H) \/
     (u_where q <> [] /\ exists W a k, In (W, UWhere a k) H /\ (a <> [] \/ k <> []))) /\
  (u_where q = [] -> ~ update_confirmed (map snd H) -> text E (VUpdate q) = Err EConfirmUpdate) /\
  (u_where q <> [] -> forall t, text E (VUpdate q) = Ok t ->
     exists pre c rest ws, text E (VConds (u_where q)) = Ok c /\ t = pre ++ lit " WHERE" ++ rest /\
       lit " " ++ c = rest ++ ws /\ Forall whitespace ws).
Proof.
  intros E H q. pose proof (upd_allow_inv H) as A. pose proof (upd_where_origin H) as O. fold q in A, O. clearbody q.
  rewrite text_unfold. cbn [str_body]. unfold update_str. split; [|split].
  - intros t Ht. destruct (u_where q) eqn:Q.
    + simpl in Ht. destruct (u_allow q) eqn:Al; [|discriminate]. left. now apply A.
    + right. split; [discriminate|]. apply O. congruence.
  - intros Hw Hc. rewrite Hw. simpl. destruct (u_allow q) eqn:Al; [|reflexivity].
    exfalso. apply Hc. now apply A.
  - intros Hw t Ht. rewrite (nilb_false _ _ Hw) in Ht. cbn [andb negb] in Ht.
    destruct (part_ctx _ (tables_str E (text E) [] (u_tabs q))) as [tb|]; [|discriminate]. cbn [bind] in Ht.
    destruct (part_ctx (u_ignore q) _) as [o|]; [|discriminate]. cbn [bind] in Ht.
    destruct (part_ctx _ (values_str (text E) [] (u_vals q))) as [r|]; [|discriminate]. cbn [bind] in Ht.
    unfold part_ctx in Ht. destruct (conds_str (text E) (lit "WHERE") (u_where q)) as [w|] eqn:W; [|discriminate].
    cbn [bind] in Ht. injection Ht as <-.
    destruct (conds_keyword _ (lit "WHERE") _ _ Hw ltac:(discriminate) W) as [c [Hc ->]].
    destruct (where_tail 85 (lit "PDATE" ++ o ++ tb ++ lit " SET" ++ r) ([c_sp] ++ c) eq_refl) as [rest [ws [S1 [S2 S3]]]].
    exists (85 :: lit "PDATE" ++ o ++ tb ++ lit " SET" ++ r), c, rest, ws.
    split; [rewrite text_unfold; exact Hc|]. split; [|split; [exact S2|exact S3]].
    etransitivity; [|exact S1]. f_equal. simpl. repeat (rewrite <- app_assoc; simpl). reflexivity.
Qed.

(** ** C30 *)
Lemma vacuous_where : forall W k ps args, In args [[]; [VDict []]; [VSeq KList []]; [VSeq KTuple []]] ->
  conds_where W k ps args [] = (ps, Ok tt).
Proof. intros W k ps args H. simpl in H. destruct H as [<-|[<-|[<-|[<-|[]]]]]; reflexivity. Qed.

(** ** C25 *)
Lemma limit_state : forall H, s_limit (calls sel_step empty_select H) =
  MkLimits (wanted_limit (map snd H)) (wanted_offset (map snd H)).
Proof.
  intros H. induction H as [|[W op] H IH] using rev_ind; [reflexivity|].
  rewrite calls_snoc, map_app. cbn [map snd fst]. unfold wanted_limit, wanted_offset. rewrite !last_snoc.
  fold (wanted_limit (map snd H)) (wanted_offset (map snd H)).
  set (q := calls sel_step empty_select H) in *. clearbody q.
  destruct op; unfold sel_step, lift1; cbn [fst snd with_limit with_cols with_tabs with_where with_group with_having
    with_order with_out with_opts with_forupd s_limit]; try (rewrite IH; reflexivity); rewrite IH.
  - unfold set_limit. destruct l; try reflexivity; try (destruct k; reflexivity). cbn [check_type rel_allowed].
    change (check_type [TNone; TInt] (VInt z)) with true. cbn [negb py_int].
    destruct o; try reflexivity; try (destruct k; reflexivity).
    unfold set_offset. change (check_type [TNone; TInt] (VInt z0)) with true. cbn [negb truthy is_none fst l_limit l_offset].
    unfold offset_value. destruct (z0 =? 0)%Z; reflexivity.
  - unfold set_offset. destruct o; try reflexivity; try (destruct k; reflexivity).
    change (check_type [TNone; TInt] (VInt z)) with true. cbn [negb truthy fst l_limit l_offset].
    unfold offset_value. destruct (z =? 0)%Z; reflexivity.
Qed.
Lemma numeral_dec : forall n, numeral n (z_dec n).
Proof. intros n. split; [apply z_dec_read|apply z_dec_canonical]. Qed.
Lemma numeral_ends : forall n t, numeral n t -> exists a c, t = a ++ [c] /\ is_space c = false.
Proof.
  intros n t [H _]. destruct t as [|x t] using rev_ind; [discriminate|]. exists t, x. split; [reflexivity|].
  clear IHt. assert (D : forall s acc m, read_digits acc (s ++ [x]) = Some m -> is_space x = false).
  { induction s as [|y s IH]; intros acc m Hr; simpl in Hr.
    - destruct (digit x) eqn:Q; [|discriminate]. unfold digit in Q. destruct ((48 <=? x) && (x <=? 57)) eqn:R; [|discriminate].
      apply andb_true_iff in R. destruct R as [R1 R2]. apply N.leb_le in R1, R2. unfold is_space.
      repeat (apply orb_false_iff; split); try (apply andb_false_iff); try apply N.eqb_neq; try lia;
      try (right; apply N.leb_gt; lia); try (left; apply N.leb_gt; lia).
    - destruct (digit y); [|discriminate]. eapply IH; eauto. }
  assert (R : forall s m, read_nat (s ++ [x]) = Some m -> is_space x = false).
  { intros s m Hr. unfold read_nat in Hr. destruct (s ++ [x]) eqn:Q; [discriminate|]. rewrite <- Q in Hr. eapply D; eauto. }
  unfold read_int in H. destruct (t ++ [x]) as [|c r] eqn:Q; [discriminate|].
  destruct t as [|c' t']; simpl in Q; injection Q as -> <-.
  - repeat match goal with H : context [match ?p with _ => _ end] |- _ => destruct p eqn:?; try discriminate end;
    try (eapply (R []); simpl; eassumption).
  - assert (K : (exists m, read_nat (t' ++ [x]) = Some m) \/ (exists m, read_nat ((c :: t') ++ [x]) = Some m)).
    { repeat match goal with H : context [match ?p with _ => _ end] |- _ => destruct p eqn:?; try discriminate end; eauto. }
    destruct K as [[m K]|[m K]]; eapply R; eauto.
Qed.

Lemma rstrip_last : forall a c, is_space c = false -> rstrip (a ++ [c]) = a ++ [c].
Proof. intros a c H. rewrite rstrip_app_stop by exact H. reflexivity. Qed.
(** strip of a text that starts with a letter and ends with a non-space. *)
Lemma strip_closed : forall d a c, is_space d = false -> is_space c = false ->
  strip ((d :: a) ++ [c]) = (d :: a) ++ [c].
Proof. intros. rewrite strip_app_stop by assumption. reflexivity. Qed.
Lemma strip_numeral : forall d a n t, is_space d = false -> numeral n t ->
  strip (d :: a ++ t) = d :: a ++ t.
Proof.
  intros d a n t Hd Hn. destruct (numeral_ends n t Hn) as [b [c [-> Hc]]].
  replace (d :: a ++ b ++ [c]) with ((d :: a ++ b) ++ [c]) by (simpl; now rewrite <- app_assoc).
  now apply strip_closed.
Qed.

Lemma only_limit : forall H, Forall limit_op (map snd H) ->
  calls sel_step empty_select H = with_limit empty_select (s_limit (calls sel_step empty_select H)).
Proof.
  intros H. induction H as [|[W op] H IH] using rev_ind; intros F; [reflexivity|].
  rewrite map_app in F. apply Forall_app in F. destruct F as [F1 F2]. specialize (IH F1).
  rewrite calls_snoc. set (q := calls sel_step empty_select H) in *. clearbody q. rewrite IH.
  inversion F2 as [|? ? Hop _]; subst. destruct op; try destruct Hop; reflexivity.
Qed.
Lemma bare_limit : forall E a b, text E (VSelect (with_limit empty_select (MkLimits a b))) =
  Ok (strip (lit "SELECT *" ++ (if limit_set (MkLimits a b) then lit " " ++ limit_str (MkLimits a b) else []) ++ [])).
Proof. intros E a b. rewrite text_unfold. destruct a, b; reflexivity. Qed.
Lemma limit_clause : forall E H, Forall limit_op (map snd H) ->
  exists cl, limit_text (wanted_limit (map snd H)) (wanted_offset (map snd H)) cl /\
    text E (VSelect (calls sel_step empty_select H)) = Ok (lit "SELECT *" ++ cl).
Proof.
  intros E H F. rewrite (only_limit H F), limit_state, bare_limit, app_nil_r.
  set (a := wanted_limit _). set (b := wanted_offset _). clearbody a b.
  destruct a as [n|], b as [m|].
  - exists (lit " LIMIT " ++ z_dec n ++ lit " OFFSET " ++ z_dec m). split; [constructor; apply numeral_dec|].
    f_equal. pose proof (strip_numeral 83 (lit "ELECT * LIMIT " ++ z_dec n ++ lit " OFFSET ") _ _ eq_refl (numeral_dec m)) as S.
    etransitivity; [|etransitivity; [exact S|]].
    + f_equal. unfold limit_str. cbn. repeat (rewrite <- app_assoc; cbn). reflexivity.
    + cbn. repeat (rewrite <- app_assoc; cbn). reflexivity.
  - exists (lit " LIMIT " ++ z_dec n). split; [constructor; apply numeral_dec|].
    f_equal. exact (strip_numeral 83 (lit "ELECT * LIMIT ") _ _ eq_refl (numeral_dec n)).
  - exists (lit " OFFSET " ++ z_dec m). split; [constructor; apply numeral_dec|].
    f_equal. exact (strip_numeral 83 (lit "ELECT * OFFSET ") _ _ eq_refl (numeral_dec m)).
  - exists []. split; [constructor|reflexivity].
Qed.
(** When limit() and offset() raise, and that an argument of a wrong type changes nothing. *)
Lemma limit_rejects : forall W q l o, snd (sel_step W q (SLimit l o)) = Ok tt <->
  limit_accepts l o.
Proof.
  intros W q l o. unfold limit_accepts, limit_arg. cbn [sel_step lift1 snd]. unfold set_limit, set_offset.
  destruct l; try (split; [discriminate|intros [[C|[? C]] _]; discriminate]);
    try (destruct k; (split; [discriminate|intros [[C|[? C]] _]; discriminate])).
  - split; [intros _; split; [now left|now left]|reflexivity].
  - change (check_type [TNone; TInt] (VInt z)) with true. cbn [negb py_int].
    destruct o; cbn [is_none];
      try (split; [discriminate|intros [_ [C|[C|[? C]]]]; discriminate]);
      try (destruct k; (split; [discriminate|intros [_ [C|[C|[? C]]]]; discriminate])).
    + split; [intros _; split; [right; eauto|right; left; reflexivity]|reflexivity].
    + change (check_type [TNone; TInt] (VInt z0)) with true. cbn [negb truthy py_int].
      split; [intros _; split; [right; eauto|right; right; eauto]|intros _; destruct (z0 =? 0)%Z; reflexivity].
Qed.
Lemma offset_rejects : forall W q o, snd (sel_step W q (SOffset o)) = Ok tt <-> limit_arg o.
Proof.
  intros W q o. unfold limit_arg. cbn [sel_step lift1 snd]. unfold set_offset.
  destruct o; try (split; [discriminate|intros [C|[? C]]; discriminate]);
    try (destruct k; (split; [discriminate|intros [C|[? C]]; discriminate])).
  - split; [now left|reflexivity].
  - change (check_type [TNone; TInt] (VInt z)) with true. cbn [negb truthy py_int].
    split; [intros _; right; eauto|intros _; destruct (z =? 0)%Z; reflexivity].
Qed.
Lemma limit_unchanged : forall W q op, limit_op op ->
  (match op with SLimit l _ => ~ limit_arg l | SOffset o => ~ limit_arg o | _ => False end) ->
  fst (sel_step W q op) = q.
Proof.
  assert (K : forall q l, l = s_limit q -> with_limit q l = q) by (intros [] l ->; reflexivity).
  unfold limit_arg. intros W q op _ H. destruct op; try contradiction.
  - cbn [sel_step lift1 fst]. unfold set_limit.
    destruct l; try (apply K; reflexivity); try (destruct k; apply K; reflexivity).
    + exfalso. apply H. now left.
    + exfalso. apply H. right. eauto.
  - cbn [sel_step lift1 fst]. unfold set_offset.
    destruct o; try (apply K; reflexivity); try (destruct k; apply K; reflexivity).
    + exfalso. apply H. now left.
    + exfalso. apply H. right. eauto.
Qed.

(** ** C26, C27 *)
Lemma only_options : forall H, Forall option_op (map snd H) ->
  calls sel_step empty_select H = with_opts empty_select (s_opts (calls sel_step empty_select H)).
Proof.
  intros H. induction H as [|[W op] H IH] using rev_ind; intros F; [reflexivity|].
  rewrite map_app in F. apply Forall_app in F. destruct F as [F1 F2]. specialize (IH F1).
  rewrite calls_snoc. set (q := calls sel_step empty_select H) in *. clearbody q. rewrite IH.
  inversion F2 as [|? ? Hop _]; subst. destruct op; try destruct Hop. reflexivity.
Qed.
(** What the record of options says about one option. *)
Definition opt_state (o : selopts) (k : selopt) : bool :=
  match k with
  | OSqlCache => match so_cache o with CacheOn => true | _ => false end
  | OSqlNoCache => match so_cache o with CacheNo => true | _ => false end
  | OAll => match so_dup o with DupAll => true | _ => false end
  | ODistinct => match so_dup o with DupDistinct => true | _ => false end
  | ODistinctrow => match so_dup o with DupDistinctrow => true | _ => false end
  | OSmall => so_small o | OBig => so_big o | OBuffer => so_buffer o | OCalc => so_calc o
  | OStraight => so_straight o | OHigh => so_high o
  end.
Lemma set_opt_state : forall o k allow k', opt_state (set_selopt o k allow) k' =
  if optgroup_eqb (group_of k) (group_of k') then allow && selopt_eqb k k' else opt_state o k'.
Proof. intros [ca du sm bi bu cf sj hp] [] [] []; reflexivity. Qed.
Lemma options_inv : forall H k, opt_state (s_opts (calls sel_step empty_select H)) k = option_on (map snd H) k.
Proof.
  intros H k. induction H as [|[W op] H IH] using rev_ind; [destruct k; reflexivity|].
  rewrite calls_snoc, map_app. unfold option_on. cbn [map snd fst]. rewrite last_snoc.
  fold (option_on (map snd H) k). set (q := calls sel_step empty_select H) in *. clearbody q.
  destruct op; try (exact IH). cbn [sel_step fst s_opts with_opts]. rewrite set_opt_state, IH.
  destruct (optgroup_eqb (group_of k0) (group_of k)); [|reflexivity].
  destruct (truthy allow); reflexivity.
Qed.
Lemma opts_text : forall o, selopts_str o = sjoin (lit " ") (map option_name (filter (opt_state o) alphabetical)) /\
  selopts_set o = existsb (opt_state o) alphabetical.
Proof.
  intros [[] [] [] [] [] [] [] []]; split; vm_compute; reflexivity.
Qed.
Lemma existsb_filter : forall A (f : A -> bool) l, existsb f l = negb (is_nilb (filter f l)).
Proof. intros A f l. induction l as [|x l IH]; [reflexivity|]. simpl. destruct (f x); [reflexivity|exact IH]. Qed.
Lemma bare_opts : forall E o, text E (VSelect (with_opts empty_select o)) =
  Ok (strip (lit "SELECT" ++ (if selopts_set o then lit " " ++ selopts_str o else []) ++ lit " *")).
Proof. intros E o. rewrite text_unfold. cbn [str_body]. unfold select_str. cbn [with_opts s_opts]. unfold part_ctx at 8. destruct (selopts_set o); reflexivity. Qed.
Lemma option_clause : forall E H, Forall option_op (map snd H) ->
  text E (VSelect (calls sel_step empty_select H)) =
    Ok (sjoin (lit " ") ([lit "SELECT"] ++ map option_name (filter (option_on (map snd H)) alphabetical) ++ [lit "*"])).
Proof.
  intros E H F. rewrite (only_options H F), bare_opts.
  destruct (opts_text (s_opts (calls sel_step empty_select H))) as [T1 T2]. rewrite T1, T2, existsb_filter.
  rewrite (filter_ext _ _ (options_inv H)). set (l := filter _ _). clearbody l. f_equal.
  assert (J : forall x m, sjoin (lit " ") (map option_name (x :: m) ++ [lit "*"]) = sjoin (lit " ") (map option_name (x :: m)) ++ lit " *").
  { intros x m. revert x. induction m as [|y m IH]; intros x; [reflexivity|].
    change (sjoin (lit " ") (map option_name (x :: y :: m) ++ [lit "*"])) with
      (option_name x ++ lit " " ++ sjoin (lit " ") (map option_name (y :: m) ++ [lit "*"])). rewrite IH.
    change (sjoin (lit " ") (map option_name (x :: y :: m))) with (option_name x ++ lit " " ++ sjoin (lit " ") (map option_name (y :: m))).
    now rewrite <- !app_assoc. }
  destruct l as [|x l]; [reflexivity|]. cbn [negb is_nilb].
  pose proof (strip_closed 83 (lit "ELECT " ++ sjoin (lit " ") (map option_name (x :: l)) ++ lit " ") 42 eq_refl eq_refl) as S.
  etransitivity; [|etransitivity; [exact S|]].
  - f_equal. simpl. now rewrite <- !app_assoc.
  - change (sjoin (lit " ") ([lit "SELECT"] ++ map option_name (x :: l) ++ [lit "*"])) with
      (lit "SELECT " ++ sjoin (lit " ") (map option_name (x :: l) ++ [lit "*"])). rewrite J. simpl. now rewrite <- !app_assoc.
Qed.
(** Exclusive options never appear together, and only options ever switched on appear. *)
Lemma option_exclusive : forall ops k k', option_on ops k = true -> option_on ops k' = true ->
  group_of k = group_of k' -> k = k'.
Proof.
  intros ops k k' H1 H2 G. unfold option_on in *. rewrite G in H1.
  destruct (last_such _ ops) as [[k0 []]|]; try discriminate.
  destruct k0, k, k'; try discriminate; reflexivity.
Qed.
Lemma option_order : forall ops1 ops2, (forall k, option_on ops1 k = option_on ops2 k) ->
  filter (option_on ops1) alphabetical = filter (option_on ops2) alphabetical.
Proof. intros. now apply filter_ext. Qed.
(** C27 *)
Lemma option_off_partial : forall ops k v k', truthy v = false -> (k' = k \/ group_of k' <> group_of k) ->
  option_on (ops ++ [SOpt k v]) k' = if selopt_eqb k' k then false else option_on ops k'.
Proof.
  intros ops k v k' Hv [->|N]; unfold option_on; rewrite last_snoc.
  - replace (optgroup_eqb (group_of k) (group_of k)) with true by (destruct k; reflexivity). rewrite Hv.
    replace (selopt_eqb k k) with true by (destruct k; reflexivity). reflexivity.
  - replace (optgroup_eqb (group_of k) (group_of k')) with false; [|destruct k, k'; try reflexivity; simpl in N; congruence].
    replace (selopt_eqb k' k) with false; [reflexivity|]. destruct k, k'; try reflexivity; simpl in N; congruence.
Qed.
Lemma sel_conditions_prefix : forall H q,
  prefix (s_where q) (s_where (calls sel_step q H)) /\ prefix (s_having q) (s_having (calls sel_step q H)).
Proof. intros H q. split; [apply sel_where_prefix|apply sel_having_prefix]. Qed.
Lemma alphabetical_ok : StronglySorted (fun a b => sltb a b = true) (map option_name alphabetical) /\
  forall k, In k alphabetical.
Proof. split; [cbn [map alphabetical]; repeat constructor|intros []; simpl; tauto]. Qed.
