(** Proofs about UNION and configuration. *)
From Coq Require Import Lia.
From Verif Require Import Base BaseFacts NumFmt Value Backend Eq Render RenderFacts ParseArgs Build Queries History
  SpecHistory SpecClauses SpecBackends.
Open Scope N_scope.

Lemma Forall2_len : forall A B (P : A -> B -> Prop) l m, Forall2 P l m -> List.length l = List.length m.
Proof. intros A B P l m F. induction F; cbn; congruence. Qed.
Lemma list_sum_cons : forall n l, list_sum (n :: l) = (n + list_sum l)%nat.
Proof. reflexivity. Qed.
Lemma operands_ne : forall A (e : uexpr A), exists a l, operands e = a :: l.
Proof.
  induction e as [a|t l [x [xs IHl]] r IHr]; [eexists; eexists; reflexivity|].
  cbn [operands]. rewrite IHl. eexists. eexists. reflexivity.
Qed.
Lemma operands_length : forall A (e : uexpr A), List.length (operands e) = S (List.length (operators e)).
Proof.
  induction e as [a|t l IHl r IHr]; [reflexivity|]. cbn [operands operators]. rewrite !app_length. cbn [List.length]. lia.
Qed.
Lemma alternated_app : forall ops ops' ts ts' o, List.length ts = S (List.length ops) ->
  alternated (ops ++ o :: ops') (ts ++ ts') = alternated ops ts ++ union_word o ++ alternated ops' ts'.
Proof.
  induction ops as [|p ops IH]; intros ops' ts ts' o L.
  - destruct ts as [|t [|]]; try discriminate. reflexivity.
  - destruct ts as [|t ts]; [discriminate|]. cbn [app alternated]. rewrite IH by (cbn in L; lia).
    rewrite <- !app_assoc. reflexivity.
Qed.
Lemma binop_union : forall o a b v, (exists q, a = VSelect q) \/ (exists t x y, a = VUnion t x y) -> py_binop o a b = Ok v ->
  v = VUnion (match o with OpAnd => UAll | OpOr => UUnion end) a b.
Proof.
  intros o a b v [[q ->]|[t [x [y ->]]]] P; cbn [py_binop] in P; unfold mk_union in P;
    repeat match type of P with context [if ?c then _ else _] => destruct c end; try discriminate; injection P as <-; reflexivity.
Qed.
Lemma built_kind : forall e v, built e v -> (exists q, v = VSelect q) \/ (exists t x y, v = VUnion t x y).
Proof.
  intros e v B. induction B as [q|l r a b v Bl IHl Br IHr P|l r a b v Bl IHl Br IHr P]; [left; eauto| |];
    right; rewrite (binop_union _ _ _ _ IHl P); eauto.
Qed.
Lemma built_union : forall t l r v, built (UOp t l r) v -> exists a b, built l a /\ built r b /\ v = VUnion t a b.
Proof.
  intros t l r v B. inversion B as [|l' r' a b v' Bl Br P|l' r' a b v' Bl Br P]; subst; exists a, b; (split; [exact Bl|split; [exact Br|]]);
    exact (binop_union _ _ _ _ (built_kind _ _ Bl) P).
Qed.
Lemma union_text : forall E e v, built e v -> forall t, text E v = Ok t <->
  exists ts, Forall2 (fun q s => text E (VSelect q) = Ok s) (operands e) ts /\ t = alternated (operators e) ts.
Proof.
  intros E e. induction e as [q|o l IHl r IHr]; intros v B t.
  - inversion B; subst. cbn [operands operators]. split.
    + intros T. exists [t]. split; [repeat constructor; exact T|reflexivity].
    + intros [ts [F ->]]. inversion F as [|? s ? rest T F']; subst. inversion F'; subst. exact T.
  - apply built_union in B. destruct B as [a [b [Bl [Br ->]]]].
    specialize (IHl _ Bl). specialize (IHr _ Br). rewrite text_unfold. cbn [str_body operands operators].
    assert (LEN : forall ts, Forall2 (fun q s => text E (VSelect q) = Ok s) (operands l) ts -> List.length ts = S (List.length (operators l))).
    { intros ts F. rewrite <- operands_length. symmetry. exact (Forall2_len _ _ _ _ _ F). }
    split.
    + intros T. destruct (text E a) as [x|] eqn:Ta; [|discriminate]. destruct (text E b) as [y|] eqn:Tb; [|discriminate].
      cbn [bind] in T. injection T as <-.
      destruct (proj1 (IHl x) eq_refl) as [ts [Fl ->]]. destruct (proj1 (IHr y) eq_refl) as [us [Fr ->]].
      exists (ts ++ us). split; [apply Forall2_app; assumption|]. rewrite alternated_app by (apply LEN; exact Fl).
      destruct o; reflexivity.
    + intros [ts [F ->]]. apply Forall2_app_inv_l in F. destruct F as [xs [ys [Fl [Fr ->]]]].
      rewrite (proj2 (IHl (alternated (operators l) xs))) by eauto.
      rewrite (proj2 (IHr (alternated (operators r) ys))) by eauto.
      cbn [bind]. rewrite alternated_app by (apply LEN; exact Fl). destruct o; reflexivity.
Qed.

(** Reading from left to right. *)
Lemma read_left_app : forall ops ops' ns ns' acc, List.length ops = List.length ns ->
  read_left acc (ops ++ ops') (ns ++ ns') = read_left (read_left acc ops ns) ops' ns'.
Proof.
  induction ops as [|o ops IH]; intros ops' ns ns' acc L; destruct ns as [|n ns]; try discriminate; [reflexivity|].
  cbn [app read_left]. apply IH. cbn in L. lia.
Qed.
Lemma read_sql_op : forall t l r n ns, operands r = n :: ns ->
  read_sql (UOp t l r) = read_left (combine_rows t (read_sql l) n) (operators r) ns.
Proof.
  intros t l r n ns Er. unfold read_sql. cbn [operands operators]. destruct (operands_ne _ l) as [m [ms El]].
  pose proof (operands_length _ l) as L. rewrite El in *. rewrite Er. cbn [app]. cbn in L.
  rewrite read_left_app by lia. reflexivity.
Qed.
Lemma read_all : forall ops ns acc, Forall (eq UAll) ops -> List.length ops = List.length ns -> read_left acc ops ns = (acc + list_sum ns)%nat.
Proof.
  induction ops as [|o ops IH]; intros ns acc F L; destruct ns as [|n ns]; try discriminate; [cbn; lia|].
  inversion F; subst. cbn [read_left combine_rows]. rewrite IH by (try assumption; cbn in L; lia). rewrite list_sum_cons. lia.
Qed.
Lemma denoted_all : forall e, Forall (eq UAll) (operators e) -> denoted e = list_sum (operands e).
Proof.
  induction e as [n|t l IHl r IHr]; intros F; [cbn; lia|]. cbn [operators] in F. apply Forall_app in F. destruct F as [Fl F].
  inversion F; subst. cbn [denoted operands]. rewrite list_sum_app, IHl, IHr by assumption. reflexivity.
Qed.
(** Whether a row is there at all. *)
Lemma denoted_zero : forall e, denoted e = O <-> list_sum (operands e) = O.
Proof.
  induction e as [n|t l IHl r IHr]; [cbn; lia|]. cbn [denoted operands]. rewrite list_sum_app.
  destruct t; cbn [combine_rows]; [|lia]. destruct (denoted l + denoted r)%nat eqn:D; lia.
Qed.
Lemma read_zero : forall ops ns acc, List.length ops = List.length ns -> (read_left acc ops ns = O <-> (acc + list_sum ns = 0)%nat).
Proof.
  induction ops as [|o ops IH]; intros ns acc L; destruct ns as [|n ns]; try discriminate; [cbn; lia|].
  cbn [read_left]. rewrite IH by (cbn in L; lia). rewrite list_sum_cons.
  destruct o; cbn [combine_rows]; [|lia]. destruct (acc + n)%nat eqn:D; lia.
Qed.
Lemma read_sql_zero : forall e, read_sql e = O <-> list_sum (operands e) = O.
Proof.
  intros e. unfold read_sql. pose proof (operands_length _ e) as L. destruct (operands_ne _ e) as [n [ns E]].
  rewrite E in *. cbn in L. rewrite read_zero by lia. cbn. reflexivity.
Qed.
Lemma snoc_cases : forall A (l : list A), l = [] \/ exists x y, l = x ++ [y].
Proof. intros A l. destruct l as [|a l] using rev_ind; [now left|right; eauto]. Qed.
Lemma union_at_most_one : forall m n, (combine_rows UUnion m n <= 1)%nat.
Proof. intros m n. cbn. destruct (m + n)%nat; lia. Qed.
Lemma same_ops : forall A B (e : uexpr A) (c : uexpr B), same_shape e c -> operators e = operators c.
Proof. intros A B e c S. induction S as [|t l r l' r' Sl IHl Sr IHr]; [reflexivity|]. cbn. rewrite IHl, IHr. reflexivity. Qed.
Lemma faithful_reads : forall e : uexpr nat, faithful e -> denoted e = read_sql e.
Proof.
  induction e as [n|[] l IHl r IHr]; intros F; [reflexivity| |].
  - (* UNION *)
    assert (R1 : (read_sql (UOp UUnion l r) <= 1)%nat).
    { destruct (operands_ne _ r) as [n [ns Er]]. rewrite (read_sql_op _ _ _ _ _ Er).
      pose proof (operands_length _ r) as L. rewrite Er in L. cbn in L.
      cbn [faithful] in F. destruct (snoc_cases _ (operators r)) as [Eo|[ops [t Eo]]].
      - rewrite Eo. destruct ns; cbn [read_left]; apply union_at_most_one.
      - rewrite (F _ _ Eo) in Eo. rewrite Eo in *. rewrite app_length in L. cbn in L.
        destruct (snoc_cases _ ns) as [En|[ms [m En]]]; [subst ns; cbn in L; lia|]. subst ns. rewrite app_length in L. cbn in L.
        rewrite read_left_app by lia. apply union_at_most_one. }
    pose proof (read_sql_zero (UOp UUnion l r)) as Z1. pose proof (denoted_zero (UOp UUnion l r)) as Z2.
    assert (D1 : (denoted (UOp UUnion l r) <= 1)%nat) by apply union_at_most_one. lia.
  - destruct F as [Fl Fr]. destruct (operands_ne _ r) as [n [ns Er]]. rewrite (read_sql_op _ _ _ _ _ Er).
    pose proof (operands_length _ r) as L. rewrite Er in L. cbn in L. rewrite read_all by (try exact Fr; lia).
    cbn [denoted combine_rows]. rewrite (IHl Fl), (denoted_all r Fr), Er. rewrite list_sum_cons. lia.
Qed.

(** Witnesses: every operand empty but one. *)
Fixpoint filled {A} (n : nat) (e : uexpr A) : uexpr nat :=
  match e with ULeaf _ => ULeaf n | UOp t l r => UOp t (filled n l) (filled n r) end.
Fixpoint first_leaf {A} (n : nat) (e : uexpr A) : uexpr nat :=
  match e with ULeaf _ => ULeaf n | UOp t l r => UOp t (first_leaf n l) (filled 0 r) end.
Fixpoint last_leaf {A} (n : nat) (e : uexpr A) : uexpr nat :=
  match e with ULeaf _ => ULeaf n | UOp t l r => UOp t (filled 0 l) (last_leaf n r) end.
Lemma filled_shape : forall A n (e : uexpr A), same_shape (filled n e) e.
Proof. intros A n e. induction e; constructor; assumption. Qed.
Lemma first_shape : forall A n (e : uexpr A), same_shape (first_leaf n e) e.
Proof. intros A n e. induction e; constructor; auto using filled_shape. Qed.
Lemma last_shape : forall A n (e : uexpr A), same_shape (last_leaf n e) e.
Proof. intros A n e. induction e; constructor; auto using filled_shape. Qed.
Lemma filled_zero : forall A (e : uexpr A), operands (filled 0 e) = repeat O (S (List.length (operators e))).
Proof.
  intros A e. induction e as [a|t l IHl r IHr]; [reflexivity|]. cbn [filled operands operators]. rewrite IHl, IHr, <- repeat_app.
  rewrite app_length. cbn [List.length]. reflexivity.
Qed.
Lemma sum_zero : forall k, list_sum (repeat O k) = O.
Proof. induction k; [reflexivity|]. exact IHk. Qed.
Lemma first_operands : forall A n (e : uexpr A), operands (first_leaf n e) = n :: repeat O (List.length (operators e)).
Proof.
  intros A n e. induction e as [a|t l IHl r IHr]; [reflexivity|]. cbn [first_leaf operands operators]. rewrite IHl, filled_zero.
  rewrite app_length. cbn [List.length app]. rewrite <- repeat_app. reflexivity.
Qed.
Lemma last_operands : forall A n (e : uexpr A), operands (last_leaf n e) = repeat O (List.length (operators e)) ++ [n].
Proof.
  intros A n e. induction e as [a|t l IHl r IHr]; [reflexivity|]. cbn [last_leaf operands operators]. rewrite IHr, filled_zero.
  rewrite app_length. cbn [List.length]. rewrite app_assoc, <- repeat_app. do 2 f_equal. lia.
Qed.
Lemma first_denoted : forall A (e : uexpr A), denoted (first_leaf 1 e) = 1%nat.
Proof.
  intros A e. induction e as [a|t l IHl r IHr]; [reflexivity|]. cbn [first_leaf denoted]. rewrite IHl.
  replace (denoted (filled 0 r)) with O; [destruct t; reflexivity|]. symmetry. apply denoted_zero. rewrite filled_zero. apply sum_zero.
Qed.
Lemma read_zeros : forall ops acc, (In UUnion ops -> read_left (S acc) ops (repeat O (List.length ops)) = 1%nat) /\
  (~ In UUnion ops -> read_left (S acc) ops (repeat O (List.length ops)) = S acc).
Proof.
  induction ops as [|o ops IH]; intros acc; [split; [intros []|reflexivity]|]. cbn [List.length repeat read_left].
  destruct o; cbn [combine_rows]; rewrite Nat.add_0_r.
  - split; [intros _|intros N; destruct N; now left].
    destruct (In_dec (fun a b : uniont => ltac:(decide equality)) UUnion ops) as [I|I]; [exact (proj1 (IH O) I)|].
    rewrite (proj2 (IH O) I). reflexivity.
  - split; [intros [D|I]; [discriminate|apply IH; exact I]|intros N; apply IH; intros I; apply N; now right].
Qed.
Lemma all_or_union : forall ops : list uniont, Forall (eq UAll) ops \/ In UUnion ops.
Proof.
  induction ops as [|[] ops IH]; [left; constructor|right; now left|]. destruct IH as [IH|IH]; [left; now constructor|right; now right].
Qed.
Lemma unfaithful : forall A (e : uexpr A), ~ faithful e -> exists c, same_shape c e /\ denoted c <> read_sql c.
Proof.
  intros A e. induction e as [a|[] l IHl r IHr]; intros N; [destruct N; exact I| |].
  - (* UNION: the last operator of the right operand is UNION ALL *)
    destruct (snoc_cases _ (operators r)) as [Eo|[ops [t Eo]]].
    { destruct N. intros ops t E. rewrite Eo in E. destruct ops; discriminate. }
    destruct t.
    { destruct N. intros ops' t' E. rewrite Eo in E. apply app_inj_tail in E. destruct E as [_ <-]. reflexivity. }
    exists (UOp UUnion (filled 0 l) (last_leaf 2 r)). split; [constructor; [apply filled_shape|apply last_shape]|].
    pose proof (last_operands _ 2%nat r) as Lr. rewrite Eo, app_length in Lr. cbn [List.length] in Lr. rewrite Nat.add_1_r in Lr.
    cbn [repeat app] in Lr. rewrite (read_sql_op _ _ _ _ _ Lr). rewrite (same_ops _ _ _ _ (last_shape _ 2%nat r)), Eo.
    rewrite read_left_app by (rewrite repeat_length; reflexivity). cbn [read_left combine_rows].
    pose proof (union_at_most_one (denoted (filled 0 l)) (denoted (last_leaf 2 r))) as U. cbn [denoted]. lia.
  - (* UNION ALL *)
    destruct (all_or_union (operators r)) as [Fr|Ir].
    + destruct IHl as [c [Sc D]]; [intros Fl; apply N; split; assumption|].
      exists (UOp UAll c (filled 0 r)). split; [constructor; [exact Sc|apply filled_shape]|].
      pose proof (filled_zero _ r) as Zr. cbn [repeat] in Zr. rewrite (read_sql_op _ _ _ _ _ Zr).
      rewrite (same_ops _ _ _ _ (filled_shape _ O r)). rewrite read_all by (try exact Fr; rewrite repeat_length; reflexivity).
      rewrite sum_zero. cbn [denoted combine_rows].
      replace (denoted (filled 0 r)) with O; [lia|]. symmetry. apply denoted_zero. rewrite filled_zero. apply sum_zero.
    + exists (UOp UAll (first_leaf 1 l) (first_leaf 1 r)). split; [constructor; apply first_shape|].
      rewrite (read_sql_op _ _ _ _ _ (first_operands _ 1%nat r)). rewrite (same_ops _ _ _ _ (first_shape _ 1%nat r)).
      cbn [denoted combine_rows]. rewrite !first_denoted.
      assert (R : read_sql (first_leaf 1 l) <> O).
      { rewrite read_sql_zero, first_operands. cbn. discriminate. }
      destruct (read_sql (first_leaf 1 l)) as [|k]; [congruence|]. change (S k + 1)%nat with (S (k + 1)); rewrite (proj1 (read_zeros (operators r) (k + 1)%nat) Ir). discriminate.
Qed.
Lemma shape_faithful : forall A B (e : uexpr A) (c : uexpr B), same_shape e c -> faithful c -> faithful e.
Proof.
  intros A B e c S. induction S as [|t l r l' r' Sl IHl Sr IHr]; [intros; exact I|].
  destruct t; cbn [faithful]; rewrite (same_ops _ _ _ _ Sr); [auto|]. intros [Fl Fr]. auto.
Qed.
Lemma union_exact : forall A (e : uexpr A), faithful e <-> forall c, same_shape c e -> denoted c = read_sql c.
Proof.
  intros A e. split.
  - intros F c S. apply faithful_reads. exact (shape_faithful _ _ _ _ S F).
  - intros H. assert (D : faithful e \/ ~ faithful e).
    { clear H. induction e as [a|[] l IHl r IHr]; [now left| |].
      - cbn [faithful]. destruct (snoc_cases _ (operators r)) as [Eo|[ops [t Eo]]].
        + left. intros ops t E. rewrite Eo in E. destruct ops; discriminate.
        + destruct t; [left|right].
          * intros ops' t' E. rewrite Eo in E. apply app_inj_tail in E. destruct E as [_ <-]. reflexivity.
          * intros N. discriminate (N _ _ Eo).
      - cbn [faithful]. destruct IHl as [IHl|IHl]; [|right; tauto]. destruct (all_or_union (operators r)) as [Fr|Ir]; [left; tauto|].
        right. intros [_ Fr]. rewrite Forall_forall in Fr. discriminate (Fr _ Ir). }
    destruct D as [D|D]; [exact D|]. destruct (unfaithful _ e D) as [c [S N]]. destruct (N (H c S)).
Qed.

(** ** Configuration *)
Lemma lower_small : forall c d, c < 128 -> (97 <= d /\ d <= 122) -> (ascii_lower c = d <-> same_letter c d).
Proof.
  intros c d C D. unfold ascii_lower, same_letter. destruct ((65 <=? c) && (c <=? 90)) eqn:B.
  - apply andb_true_iff in B. rewrite !N.leb_le in B. lia.
  - apply andb_false_iff in B. rewrite !N.leb_gt in B. lia.
Qed.
Lemma lower_names : forall E, lower_ok E -> forall b s, slower E s = database_name b <-> Forall2 same_letter s (database_name b).
Proof.
  intros E L b s.
  assert (LET : Forall (fun d => 97 <= d /\ d <= 122) (database_name b)).
  { destruct b; vm_compute; repeat constructor; discriminate. }
  assert (G : forall d n, d <= n -> n = d \/ True) by auto. clear G.
  assert (K : forall n, (forall d, In d n -> In d (database_name b)) -> Forall (fun d => 97 <= d /\ d <= 122) n ->
    forall s, slower E s = n <-> Forall2 same_letter s n).
  { intros n. induction n as [|d n IH]; intros Sub Let s0.
    - split.
      + destruct s0 as [|c s0]; [constructor|]. cbn. destruct (c <? 128) eqn:C; [discriminate|]. apply N.ltb_ge in C.
        destruct (L c C) as [d [I _]]. destruct (e_lower E c); [destruct I|discriminate].
      + intros F. inversion F; subst. reflexivity.
    - inversion Let as [|? ? Hd Hn]; subst. split.
      + destruct s0 as [|c s0]; [discriminate|]. cbn. destruct (c <? 128) eqn:C.
        * cbn [app]. intros Q. injection Q as Q1 Q2. apply N.ltb_lt in C. constructor; [apply lower_small; auto|].
          apply IH; [intros x I; apply Sub; now right|exact Hn|exact Q2].
        * apply N.ltb_ge in C. intros Q. destruct (L c C) as [x [I O]]. destruct (O b). apply Sub.
          rewrite <- Q. apply in_or_app. now left.
      + intros F. inversion F as [|c ? s1 ? Sc F']; subst. cbn.
        assert (C : c < 128) by (destruct Sc as [->|[? ?]]; lia). rewrite (proj2 (N.ltb_lt _ _) C).
        rewrite (proj2 (lower_small c d C Hd) Sc). cbn [app]. f_equal. apply IH; [intros x I; apply Sub; now right|exact Hn|exact F']. }
  apply K; [auto|exact LET].
Qed.
Lemma backend_names : forall n b, backend_of_name n = Some b <-> n = database_name b.
Proof.
  intros n b. unfold backend_of_name. split.
  - repeat match goal with |- context [seqb ?x ?y] => destruct (seqb x y) eqn:? end; intros Q; try discriminate; injection Q as <-;
      match goal with H : seqb _ _ = true |- _ => apply seqb_eq in H; exact H end.
  - intros ->. destruct b; vm_compute; reflexivity.
Qed.
Lemma configure_one : forall E cur v, lower_ok E ->
  (forall b, names v b -> set_backend E cur v = (b, Ok tt)) /\
  ((forall b, ~ names v b) -> exists e, set_backend E cur v = (cur, Err e)).
Proof.
  intros E cur v L. split.
  - intros b [s [-> F]]. cbn [set_backend]. rewrite (proj2 (lower_names E L b s) F), (proj2 (backend_names _ b) eq_refl). reflexivity.
  - intros N. destruct v; cbn [set_backend]; eauto. destruct (backend_of_name (slower E s)) as [b|] eqn:B; [|eauto].
    apply backend_names in B. apply (lower_names E L) in B. destruct (N b). exists s. auto.
Qed.
Lemma names_unique : forall v b b', names v b -> names v b' -> b = b'.
Proof.
  intros v b b' [s [-> F]] [s' [Q F']]. injection Q as <-.
  pose proof (Forall2_len _ _ _ _ _ F) as L. pose proof (Forall2_len _ _ _ _ _ F') as L'.
  destruct b, b'; try reflexivity; exfalso; rewrite L in L'; vm_compute in L'; discriminate.
Qed.
Lemma configure_history : forall E l cur, lower_ok E ->
  (forall pre v b post, l = pre ++ v :: post -> names v b -> (forall w b', In w post -> ~ names w b') -> configured E cur l = b) /\
  ((forall w b', In w l -> ~ names w b') -> configured E cur l = cur).
Proof.
  intros E l cur L.
  assert (K : forall l cur, (forall w b', In w l -> ~ names w b') -> configured E cur l = cur).
  { clear l cur. induction l as [|v l IH]; intros cur N; [reflexivity|]. unfold configured. cbn [fold_left].
    destruct (proj2 (configure_one E cur v L)) as [e Q]; [intros b; apply N; now left|]. rewrite Q. apply IH. intros w b' I. apply N. now right. }
  split; [|apply K]. intros pre v b post -> Nm N. unfold configured. rewrite fold_left_app. cbn [fold_left].
  rewrite (proj1 (configure_one E _ v L) b Nm). apply K. exact N.
Qed.
