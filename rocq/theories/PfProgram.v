(** Proofs about short programs and their effect on a table: C67-C70. *)
From Coq Require Import Lia Permutation Sorted.
From Verif Require Import Base BaseFacts NumFmt Value Backend Eq Render RenderFacts ParseArgs Build Queries History
  SpecLex SpecRef SpecLogic SpecConds SpecHistory SpecArgs SpecErrors SpecWhole SpecSql SpecServer SpecProgram
  PfArgs PfErrors PfAccept PfHistories PfDedupe PfSqlExec PfServer.
Open Scope N_scope.

(** ** Comparison of data *)
Section Data.
  Context (b : backend).
  Lemma datum_total : forall r v w, datum b v -> datum b w -> exists x, pyeq r v w = Ok x.
  Proof.
    intros r v w V W. destruct v; try contradiction; cbn [pyeq textual_eq]; try (eexists; reflexivity);
      destruct w; try contradiction; cbn [textual_eq as_num]; eexists; reflexivity.
  Qed.
  Lemma datum_literal : forall v, datum b v -> exists l, plain_literal b v = Some l.
  Proof.
    intros v V. destruct v; try contradiction; try (eexists; reflexivity); cbn [datum] in V;
      match goal with x : num |- _ => destruct x; try contradiction; eexists; reflexivity end.
  Qed.
  Lemma datum_literal_of : forall v, datum b v -> exists l, literal_of b v = Some l.
  Proof. intros v V. destruct (datum_literal v V) as [l L]. exists l. destruct v; try contradiction; exact L. Qed.
  Lemma round_same : forall n d n' d', n * Npos d' = n' * Npos d -> round_half_even n d = round_half_even n' d'.
  Proof.
    intros n d n' d' H. assert (D : Npos d <> 0) by discriminate. assert (D' : Npos d' <> 0) by discriminate.
    assert (Q : n / Npos d = n' / Npos d').
    { rewrite <- (N.div_mul_cancel_r n (Npos d) (Npos d')) by assumption. rewrite H, (N.mul_comm (Npos d)). now apply N.div_mul_cancel_r. }
    assert (R : (n mod Npos d) * Npos d' = (n' mod Npos d') * Npos d).
    { rewrite <- !N.mul_mod_distr_r by assumption. now rewrite H, (N.mul_comm (Npos d)). }
    unfold round_half_even. rewrite Q.
    assert (C : N.compare (2 * (n mod Npos d)) (Npos d) = N.compare (2 * (n' mod Npos d')) (Npos d')); [|now rewrite C].
    set (x := n mod Npos d) in *. set (y := n' mod Npos d') in *. clearbody x y.
    destruct (N.compare_spec (2 * y) (Npos d')) as [K|K|K]; [apply N.compare_eq_iff|apply N.compare_lt_iff|apply N.compare_gt_iff]; nia.
  Qed.
  Lemma fraction_same : forall x y, fraction x -> fraction y -> num_eq x y = true -> five_decimals x = five_decimals y.
  Proof.
    intros [s n d| |] [s' n' d'| |] X Y H; try contradiction. cbn [num_eq fraction] in *. apply andb_prop in H. destruct H as [H1 H2].
    apply N.eqb_eq in H1. assert (s' = s) as ->.
    { apply orb_prop in H2. destruct H2 as [H2|H2]; [|symmetry; now apply Bool.eqb_prop]. apply N.eqb_eq in H2. subst n. now rewrite N.mod_0_l in X by discriminate. }
    unfold five_decimals. rewrite (round_same (n * 100000) d (n' * 100000) d') by nia. reflexivity.
  Qed.
  Lemma fraction_whole : forall x s n, fraction x -> num_eq x (NFin s n 1) = false /\ num_eq (NFin s n 1) x = false.
  Proof.
    intros [s' n' d'| |] s n X; try contradiction. cbn [num_eq fraction] in *.
    assert (K : n' <> n * Npos d') by (intros ->; now rewrite N.mod_mul in X by discriminate).
    split; apply andb_false_iff; left; apply N.eqb_neq; lia.
  Qed.
  (** Equal data are the same literal. *)
  Lemma datum_same : forall r v w, datum b v -> datum b w -> pyeq r v w = Ok true ->
    literal_of b v = literal_of b w /\ is_None v = is_None w.
  Proof.
    intros r v w V W H. destruct v; try contradiction; destruct w; try contradiction; cbn [pyeq textual_eq as_num is_none] in H; try discriminate.
    all: cbn [is_None]; split; [|reflexivity]; unfold literal_of; cbn [unwrapped plain_literal].
    all: try reflexivity.
    all: match type of H with Ok ?x = Ok ?y => assert (H' : x = y) by (injection H; auto); clear H; rename H' into H end.
    all: try (apply seqb_eq in H; subst; reflexivity).
    all: try (apply date_eqb_eq in H; subst; reflexivity).
    all: cbn [datum] in V, W.
    all: try (exact (fraction_same _ _ V W H)).
    all: try (match goal with X : fraction ?x |- _ => match type of H with
      | num_eq x (NFin ?s ?n 1) = true => rewrite (proj1 (fraction_whole x s n X)) in H; discriminate H
      | num_eq (NFin ?s ?n 1) x = true => rewrite (proj2 (fraction_whole x s n X)) in H; discriminate H end end).
    all: try (apply andb_prop in H; destruct H as [H1 H2]; try apply date_eqb_eq in H1; try apply time_eqb_eq in H2; subst; try reflexivity).
    all: unfold num_eq in *.
    all: apply N.eqb_eq in H1; apply orb_prop in H2.
    - destruct b0, b1; try discriminate H1; reflexivity.
    - assert (z = if b0 then 1%Z else 0%Z) as -> by (destruct H2 as [H2|H2]; [apply N.eqb_eq in H2|]; destruct b0, (z <? 0)%Z eqn:Q; cbn in H2; try discriminate; lia).
      destruct b; try contradiction; reflexivity.
    - assert (z = if b0 then 1%Z else 0%Z) as -> by (destruct H2 as [H2|H2]; [apply N.eqb_eq in H2|]; destruct b0, (z <? 0)%Z eqn:Q; cbn in H2; try discriminate; lia).
      destruct b; try contradiction; reflexivity.
    - do 2 f_equal. destruct H2 as [H2|H2]; [apply N.eqb_eq in H2; lia|]. apply Bool.eqb_prop in H2.
      destruct (z <? 0)%Z eqn:A, (z0 <? 0)%Z eqn:B; try discriminate; lia.
  Qed.

  (** The contents of a condition: data, or a list of data with IN and NOT IN. *)
  Definition content (rk : relk) (x : val) : Prop :=
    match rk with
    | RIn | RNotIn => exists l, x = VSeq KList l /\ l <> [] /\ Forall (datum b) l
    | _ => datum b x
    end.
  Definition where_cond (x : val) : Prop :=
    exists c rk v, x = VCond KWhere (VStr c) rk v /\ good_name (quote_of b) c /\ content rk v.
  Lemma all2_total : forall A (f : A -> A -> res bool) (P : A -> Prop), (forall x y, P x -> P y -> exists z, f x y = Ok z) ->
    forall l m, Forall P l -> Forall P m -> exists z, all2 f l m = Ok z.
  Proof.
    intros A f P T l. induction l as [|x l IH]; intros m L M; [eexists; reflexivity|]. destruct m as [|y m]; [eexists; reflexivity|].
    inversion L; subst. inversion M; subst. cbn [all2]. destruct (T x y) as [[] ->]; auto; [apply (IH m); assumption|eexists; reflexivity].
  Qed.
  Lemma list_same : forall r l m, Forall (datum b) l -> Forall (datum b) m -> list_eq (pyeq r) l m = Ok true ->
    members b l = members b m /\ existsb is_None l = existsb is_None m.
  Proof.
    intros r l m L M H. unfold list_eq in H. destruct (Nat.eqb _ _) eqn:Q; [|discriminate]. apply Nat.eqb_eq in Q.
    revert m M H Q. induction L as [|x l X L IH]; intros [|y m] M H Q; try discriminate; [now split|]. inversion M; subst.
    cbn [all2] in H. apply rand_true in H. destruct H as [E1 E2]. destruct (datum_same r x y) as [A B]; auto.
    destruct (IH m) as [C D]; auto. cbn [members flat_map existsb]. unfold members in C. rewrite A, B, C, D. now split.
  Qed.
  Lemma content_total : forall r rk x rk' y, content rk x -> content rk' y -> exists z, pyeq r x y = Ok z.
  Proof.
    assert (LL : forall r l m, Forall (datum b) l -> Forall (datum b) m -> exists z, pyeq r (VSeq KList l) (VSeq KList m) = Ok z).
    { intros r l m L M. cbn [pyeq textual_eq seqk_eqb]. unfold list_eq. destruct (Nat.eqb _ _); [|eexists; reflexivity].
      apply (all2_total _ _ (datum b)); auto using datum_total. }
    assert (LD : forall r l y, datum b y -> exists z, pyeq r (VSeq KList l) y = Ok z) by (intros r l [] D; try contradiction; eexists; reflexivity).
    assert (DL : forall r l y, datum b y -> exists z, pyeq r y (VSeq KList l) = Ok z) by (intros r l [] D; try contradiction; eexists; reflexivity).
    assert (SP : forall rk x, content rk x -> datum b x \/ exists l, x = VSeq KList l /\ Forall (datum b) l).
    { intros rk x X. destruct rk; try (now left); destruct X as [l [-> [_ X]]]; right; eauto. }
    intros r rk x rk' y X Y. destruct (SP _ _ X) as [X'|[l [-> X']]], (SP _ _ Y) as [Y'|[m [-> Y']]]; auto using datum_total.
  Qed.
  Lemma cond_total : forall r x y, where_cond x -> where_cond y -> exists z, pyeq r x y = Ok z.
  Proof.
    intros r x y [c [rk [v [-> [_ V]]]]] [c' [rk' [v' [-> [_ V']]]]]. cbn [pyeq textual_eq].
    destruct (content_total r _ _ _ _ V V') as [z ->]. destruct (seqb c c'), z; eexists; reflexivity.
  Qed.
  (** Conditions that Python calls equal say the same. *)
  Lemma cond_same : forall r x y cmp value, where_cond x -> where_cond y -> pyeq r x y = Ok true ->
    asked_one b cmp value x = asked_one b cmp value y.
  Proof.
    intros r x y cmp value [c [rk [v [-> [_ V]]]]] [c' [rk' [v' [-> [_ V']]]]] H. cbn [pyeq textual_eq] in H.
    apply rand_true in H. destruct H as [H1 H]. apply rand_true in H. destruct H as [H2 H3]. injection H1 as H1. apply seqb_eq in H1. subst c'.
    injection H3 as H3. assert (rk' = rk) as -> by (destruct rk, rk'; try discriminate; reflexivity).
    assert (IN : forall l m, v = VSeq KList l -> v' = VSeq KList m -> Forall (datum b) l -> Forall (datum b) m ->
              members b l = members b m /\ existsb is_None l = existsb is_None m).
    { intros l m -> -> L M. apply (list_same r); auto. }
    assert (OT : datum b v -> datum b v' -> operand_of b KWhere v = operand_of b KWhere v').
    { intros D D'. destruct (datum_same r v v' D D' H2) as [L _]. destruct v; try contradiction; destruct v'; try contradiction; cbn [operand_of]; exact (f_equal (option_map OLiteral) L). }
    destruct rk; cbn [content] in V, V'; cbn [asked_one]; destruct (expr_of (VStr c)); try reflexivity; try (now rewrite (OT V V')).
    - destruct V as [l [-> [_ L]]], V' as [m [-> [_ M]]]. destruct (IN l m) as [A B]; auto. unfold one_of. now rewrite A, B.
    - destruct V as [l [-> [_ L]]], V' as [m [-> [_ M]]]. destruct (IN l m) as [A B]; auto. unfold none_of. now rewrite A, B.
  Qed.

  (** ** The condition of a pair *)
  Lemma pair_condition : forall c v, good_name (quote_of b) c -> condition_value b v ->
    exists x, mk_condition KWhere (VStr c) v = Ok x /\ where_cond x /\
      forall sv rw, asked_one b (compare sv) (cell sv rw) x = holds b sv (column rw c) v.
  Proof.
    intros c v G V. unfold mk_condition. change (check_type [Value.TStr] (VStr c)) with true. cbn [negb].
    assert (D : forall rk x, content rk x -> where_cond (VCond KWhere (VStr c) rk x)) by (intros; exists c, rk, x; auto).
    assert (DD : forall rk x sv rw, (rk = RIn \/ rk = RNotIn -> False) -> datum b x -> asked_one b (compare sv) (cell sv rw) (VCond KWhere (VStr c) rk x) =
        match operator_of rk, literal_of b x with Some o, Some l => compare3 (compare sv) o (column rw c) l | _, _ => None end).
    { intros rk x sv rw NI X. destruct rk; try (exfalso; tauto); destruct x as [| | |x|x| | | | | | | | | | | | | | | | | | | | | | | | | |]; try contradiction; try reflexivity; destruct x; try contradiction; reflexivity. }
    destruct v; try contradiction; cbn [condition_value] in V;
      try (eexists; split; [reflexivity|]; split; [apply D; exact V|]; intros sv rw; rewrite DD; [reflexivity|intros [Q|Q]; discriminate Q|exact V]; fail).
    - (* a list *) destruct V as [K [L F]].
      assert (C : check_type cond_value_types (VSeq k l) = true /\ mk_rel (default_rel (VSeq k l)) (VSeq k l) = Ok (VRel RIn (VSeq KList l))).
      { cbn [In] in K. repeat (destruct K as [<-|K]; [split; reflexivity|]). destruct K. }
      destruct C as [-> ->]. cbn [negb bind]. eexists. split; [reflexivity|]. split; [apply D; exists l; auto|reflexivity].
    - (* a relation *) cbn [bind]. change (check_type cond_value_types (VRel k v)) with true. cbn [negb]. eexists. split; [reflexivity|].
      destruct k; try (split; [apply D; exact V|]; intros sv rw; rewrite DD; [reflexivity|intros [Q|Q]; discriminate Q|exact V]; fail).
      all: destruct v as [ | | | | | | | | |[] l| | | | | | | | | | | | | | | | | | | | | ]; try contradiction; destruct V as [L F]; (split; [apply D; exists l; auto|reflexivity]).
  Qed.

  (** ** The conditions of a list of pairs *)
  Definition truthful (sv : server) (rw : row) (ps : list val) : bool := selected b sv ps rw.
  Lemma and3_true : forall x y, is_true (and3 x y) = is_true x && is_true y.
  Proof. intros [[]|] [[]|]; reflexivity. Qed.
  Lemma selected_snoc : forall sv ps x rw, where_cond x -> selected b sv (ps ++ [x]) rw = selected b sv ps rw && is_true (asked_one b (compare sv) (cell sv rw) x).
  Proof.
    intros sv ps x rw X. unfold selected, asked_all. change (fun t : t3 => match t with Some true => true | _ => false end) with is_true.
    set (f := fun y t => and3 (asked b (compare sv) (cell sv rw) y) t).
    assert (G : forall l, is_true (fold_right f (Some true) (l ++ [x])) = is_true (fold_right f (Some true) l) && is_true (asked_one b (compare sv) (cell sv rw) x)).
    { induction l as [|y l IH]; cbn [fold_right app]; unfold f at 1.
      - rewrite and3_true, andb_true_r. destruct X as [c [rk [v [-> _]]]]. reflexivity.
      - rewrite and3_true, IH. unfold f at 2. rewrite and3_true. now rewrite andb_assoc. }
    exact (G ps).
  Qed.
  Lemma selected_in : forall sv ps x rw, In x ps -> where_cond x -> selected b sv ps rw = true -> is_true (asked_one b (compare sv) (cell sv rw) x) = true.
  Proof.
    intros sv ps x rw I X H. unfold selected, asked_all in H.
    revert H. change (is_true (fold_right (fun y t => and3 (asked b (compare sv) (cell sv rw) y) t) (Some true) ps) = true -> is_true (asked_one b (compare sv) (cell sv rw) x) = true).
    induction ps as [|y ps IH]; [destruct I|]. cbn [fold_right]. rewrite and3_true. intros H. apply andb_prop in H. destruct H as [H1 H2].
    destruct I as [->|I]; [|exact (IH I H2)]. destruct X as [c [rk [v [-> _]]]]. exact H1.
  Qed.
  Lemma any_cond : forall E ps x, Forall where_cond ps -> where_cond x -> exists z, anyM (fun p => py_eq E p x) ps = Ok z /\
    (z = true -> exists p, In p ps /\ where_cond p /\ pyeq (text E) p x = Ok true).
  Proof.
    intros E ps x F X. induction F as [|p ps P F IH]; cbn [anyM]; [exists false; split; [reflexivity|discriminate]|].
    destruct IH as [z [A B]]. unfold py_eq at 1. destruct (cond_total (text E) p x P X) as [[] Q]; rewrite Q; cbn [ror].
    - exists true. split; [reflexivity|]. intros _. exists p. split; [now left|auto].
    - exists z. split; [exact A|]. intros Z. destruct (B Z) as [p' [I R]]. exists p'. split; [now right|exact R].
  Qed.
  Lemma where_loop : forall E pairs ps, Forall (where_pair b) pairs -> Forall where_cond ps ->
    exists ps', foldE (fun s p => commit s (do x <- mk_condition KWhere (fst p) (snd p); append_unique (py_eq E) s x)) ps pairs = (ps', Ok tt) /\
      Forall where_cond ps' /\ (ps' = [] -> pairs = [] /\ ps = []) /\ (pairs = [] -> ps' = ps) /\
      forall sv rw, selected b sv ps' rw = selected b sv ps rw && matches b sv pairs rw.
  Proof.
    intros E pairs. induction pairs as [|[c v] pairs IH]; intros ps P F.
    - exists ps. repeat split; auto. intros sv rw. cbn [matches forallb]. now rewrite andb_true_r.
    - inversion P as [|? ? [[c' [Hc G]] V] P']; subst. cbn [fst snd] in Hc, V. subst c.
      destruct (pair_condition c' v G V) as [x [M [X A]]].
      destruct (any_cond E ps x F X) as [z [Z1 Z2]].
      set (ps1 := if z then ps else ps ++ [x]).
      assert (F1 : Forall where_cond ps1) by (unfold ps1; destruct z; [exact F|apply Forall_app; auto]).
      destruct (IH ps1 P' F1) as [ps' [R [F' [N [_ S]]]]]. exists ps'. split; [|split; [exact F'|split; [|split; [discriminate|]]]].
      + cbn [foldE fst snd]. rewrite M. cbn [bind]. unfold append_unique. rewrite Z1. cbn [bind commit]. exact R.
      + intros Q. destruct (N Q) as [_ N2]. unfold ps1 in N2. destruct z; [|destruct ps; discriminate N2].
        destruct (Z2 eq_refl) as [p [I _]]. subst ps. destruct I.
      + intros sv rw. rewrite S. cbn [matches forallb fst snd]. fold (matches b sv pairs rw). rewrite andb_assoc. f_equal. unfold ps1. rewrite <- A.
        destruct z; [|apply selected_snoc; exact X]. destruct (Z2 eq_refl) as [p [I [Pp Q]]].
        destruct (selected b sv ps rw) eqn:Y; [|reflexivity]. cbn [andb]. rewrite <- (cond_same _ p x _ _ Pp X Q). symmetry. eapply selected_in; eauto.
  Qed.
  Lemma where_call_effect : forall E a k pairs ps, where_call b a k pairs -> Forall where_cond ps ->
    exists ps', conds_where (pure_world E) KWhere ps a k = (ps', Ok tt) /\
      Forall where_cond ps' /\ (ps' = [] -> pairs = [] /\ ps = []) /\ (pairs = [] -> ps' = ps) /\
      forall sv rw, selected b sv ps' rw = selected b sv ps rw && matches b sv pairs rw.
  Proof.
    intros E a k pairs ps [K [D [P G]]] F. rewrite (where_plainly _ _ _ _ _ D). destruct (parsed_pairs (pure_world E) a k K) as [A _].
    rewrite (A pairs P), (foldE_batches _ (fun s c0 v => commit s (do x <- mk_condition KWhere c0 v; append_unique (py_eq E) s x))). exact (where_loop E pairs ps G F).
  Qed.
  Lemma where_cond_ok : forall x, where_cond x -> cond_ok b x.
  Proof.
    assert (L : forall v, datum b v -> value_ok b v /\ literal_of b v <> None).
    { intros v V. destruct v; try contradiction; (split; [first [exact Logic.I|exact V]|]); destruct (datum_literal_of _ V) as [y Y]; rewrite Y; discriminate. }
    intros x [c [rk [v [-> [G V]]]]]. apply co_one. split; [exact G|].
    assert (D : datum b v -> operand_ok b KWhere v /\ operand_of b KWhere v <> None).
    { intros X. destruct (L v X) as [A B]. destruct (datum_literal_of _ X) as [y Y]; destruct v; try contradiction; (split; [exact A|]); cbn [operand_of]; rewrite Y; discriminate. }
    assert (I : forall l, v = VSeq KList l -> l <> [] -> Forall (datum b) l -> l <> [] /\ All (fun x => value_ok b x /\ literal_of b x <> None) l).
    { intros l _ N F. split; [exact N|]. clear N. induction F; cbn [All]; auto. }
    destruct rk; cbn [content] in V; try (destruct (D V) as [X Y]; destruct v; try contradiction; exact (Logic.conj X Y)).
    all: destruct V as [l [Q [N F]]]; rewrite Q; apply I; auto.
  Qed.

  (** ** Histories *)
  Lemma succeed_snoc : forall Q Op (step : world -> Q -> Op -> Q * outcome) H q W op, all_succeed step q H ->
    snd (step W (calls step q H) op) = Ok tt -> all_succeed step q (H ++ [(W, op)]).
  Proof.
    intros Q Op step H. induction H as [|[W' o] H IH]; intros q W op A B; cbn [app all_succeed] in *; [now split|].
    destruct A as [A1 A2]. split; [exact A1|]. apply IH; assumption.
  Qed.
  Lemma matches_app : forall sv l m rw, matches b sv (l ++ m) rw = matches b sv l rw && matches b sv m rw.
  Proof. intros. unfold matches. apply forallb_app. Qed.
  Lemma one_table : forall E t, good_name (quote_of b) t -> tables_set (pure_world E) [] [VStr t] [] = ([MkTable (VStr t) VNone []], Ok tt).
  Proof. intros E [|c t] [_ N]; [exfalso; apply N; reflexivity|]. reflexivity. Qed.
End Data.

(** ** Values that are dropped as duplicates *)
Inductive deduped : list (str * literal) -> list (str * literal) -> Prop :=
| dd_nil : deduped [] []
| dd_keep : forall full out x, deduped full out -> deduped (full ++ [x]) (out ++ [x])
| dd_drop : forall full out x, deduped full out -> In x full -> deduped (full ++ [x]) out.
Lemma deduped_in : forall full out, deduped full out -> forall x, In x out -> In x full.
Proof.
  intros full out D. induction D; intros y I; [exact I| |]; apply in_or_app; [apply in_app_or in I; destruct I as [I|I]|]; auto.
Qed.
Lemma deduped_nil : forall full out, deduped full out -> out = [] -> full = [].
Proof.
  intros full out D Q. destruct D as [|full out x D|full out x D I]; [reflexivity|destruct out; discriminate|].
  exfalso. revert x I. induction D as [|full out y D IH|full out y D IH J]; intros x I; [destruct I|destruct out; discriminate|]. exact (IH Q y J).
Qed.
Lemma last_for_snoc : forall A c (l : list (str * A)) c' x, last_for c (l ++ [(c', x)]) = if seqb c c' then Some x else last_for c l.
Proof.
  intros A c l c' x. induction l as [|[d y] l IH]; cbn [app last_for]; [destruct (seqb c c'); reflexivity|]. rewrite IH.
  destruct (seqb c c'); reflexivity.
Qed.
Lemma none_returns_prefix : forall l x, none_returns (l ++ [x]) -> none_returns l.
Proof. intros l x N c v pre mid post ->. apply (N c v pre mid (post ++ [x])). now rewrite <- !app_assoc, <- !app_comm_cons, <- app_assoc, <- app_comm_cons. Qed.
Lemma last_among : forall c (v : literal) mid pre, (forall w, In (c, w) mid -> w = v) -> last_for c (pre ++ (c, v) :: mid) = Some v.
Proof.
  intros c v mid. induction mid as [|[d w] mid IH] using rev_ind; intros pre H.
  - rewrite last_for_snoc, (proj2 (seqb_eq c c) eq_refl). reflexivity.
  - rewrite app_comm_cons, app_assoc, last_for_snoc. destruct (seqb c d) eqn:Q.
    + apply seqb_eq in Q. subst d. f_equal. apply H. apply in_or_app. right. now left.
    + apply IH. intros w' I. apply H. apply in_or_app. now left.
Qed.
Lemma deduped_last : forall full out, deduped full out -> none_returns full -> forall c, last_for c out = last_for c full.
Proof.
  intros full out D. induction D as [|full out [d x] D IH|full out [d x] D IH I]; intros N c; [reflexivity| |].
  - rewrite !last_for_snoc. destruct (seqb c d); [reflexivity|]. apply IH. eapply none_returns_prefix; eauto.
  - rewrite last_for_snoc, IH by (eapply none_returns_prefix; eauto). destruct (seqb c d) eqn:Q; [|reflexivity]. apply seqb_eq in Q. subst d.
    apply in_split in I. destruct I as [pre [mid ->]]. apply last_among. intros w J.
    apply (N c x pre mid []); [now rewrite <- app_assoc|exact J].
Qed.
Lemma bare_table : forall b t, good_name (quote_of b) t -> Forall (table_fine b) [MkTable (VStr t) VNone []].
Proof. intros b t G. constructor; [|constructor]. split; [exact G|]. split; [exact Logic.I|]. split; [constructor|left; cbn; lia]. Qed.

Section Stored.
  Context (b : backend).
  Definition the_value (p : val * val) : val := VValue (fst p) (snd p).
  Lemma cell_total : forall r v w, cell_value b v -> cell_value b w -> exists x, pyeq r v w = Ok x.
  Proof.
    intros r v w [V|[l [-> V]]] [W|[m [-> W]]]; [apply (datum_total b); assumption| | |eexists; reflexivity].
    - destruct v; try contradiction; eexists; reflexivity.
    - destruct w; try contradiction; eexists; reflexivity.
  Qed.
  Lemma cell_same : forall r v w, cell_value b v -> cell_value b w -> pyeq r v w = Ok true -> literal_of b v = literal_of b w.
  Proof.
    intros r v w [V|[l [-> V]]] [W|[m [-> W]]] H; [apply (datum_same b r); assumption| | |].
    - destruct v; try contradiction; discriminate H.
    - destruct w; try contradiction; discriminate H.
    - cbn [pyeq textual_eq] in H. injection H as H. apply seqb_eq in H. now subst.
  Qed.
  Lemma cell_literal : forall v, cell_value b v -> value_ok b v /\ exists l, literal_of b v = Some l.
  Proof.
    intros v [V|[l [-> V]]]; [|split; [exact V|eexists; reflexivity]].
    split; [|exact (datum_literal_of b v V)]. destruct v; try contradiction; first [exact Logic.I|exact V].
  Qed.
  Lemma stores_app : forall l m, stores b (l ++ m) = stores b l ++ stores b m.
  Proof. intros. unfold stores. now rewrite flat_map_app. Qed.
  Lemma any_value : forall E out p, Forall (set_pair b) out -> set_pair b p ->
    exists z, anyM (fun q => py_eq E q (the_value p)) (map the_value out) = Ok z /\
      (z = true -> forall x, stores b [p] = [x] -> In x (stores b out)).
  Proof.
    intros E out p F P. induction F as [|q out Q F IH]; [exists false; split; [reflexivity|discriminate]|]. destruct IH as [z [A B]].
    cbn [map anyM]. destruct Q as [[c [Qc _]] Qv], P as [[d [Pd _]] Pv]. destruct q as [qc qv], p as [pc pv]. cbn [fst snd the_value] in *. subst qc pc.
    unfold py_eq at 1. unfold the_value at 1 2. cbn [pyeq textual_eq fst snd].
    destruct (seqb c d) eqn:S; cbn [rand].
    - apply seqb_eq in S. subst d. destruct (cell_total (text E) qv pv Qv Pv) as [[] T]; rewrite T; cbn [ror].
      + exists true. split; [reflexivity|]. intros _ x. unfold stores. cbn [flat_map fst snd]. rewrite (cell_same _ _ _ Qv Pv T).
        destruct (literal_of b pv); [|discriminate]. cbn [app]. intros X. injection X as <-. now left.
      + exists z. split; [exact A|]. intros Z x X.
        rewrite (stores_app [(VStr c, qv)] out : stores b ((VStr c, qv) :: out) = _). apply in_or_app. right. exact (B Z x X).
    - cbn [ror]. exists z. split; [exact A|]. intros Z x X.
      rewrite (stores_app [(VStr c, qv)] out : stores b ((VStr c, qv) :: out) = _). apply in_or_app. right. exact (B Z x X).
  Qed.
  Lemma set_loop : forall E pairs full out, Forall (set_pair b) pairs -> Forall (set_pair b) out -> deduped (stores b full) (stores b out) ->
    exists out', foldE (fun s p => commit s (do x <- mk_value (fst p) (snd p); append_unique (py_eq E) s x)) (map the_value out) pairs = (map the_value out', Ok tt) /\
      Forall (set_pair b) out' /\ deduped (stores b (full ++ pairs)) (stores b out').
  Proof.
    intros E pairs. induction pairs as [|p pairs IH]; intros full out P F D.
    - exists out. rewrite app_nil_r. auto.
    - inversion P as [|? ? Pp P']; subst.
      assert (M : mk_value (fst p) (snd p) = Ok (the_value p) /\ exists x, stores b [p] = [x]).
      { destruct Pp as [[c [C _]] V]. destruct p as [pc v]. cbn [fst snd] in *. subst pc. destruct (cell_literal v V) as [_ [l L]]. split.
        - unfold mk_value. change (check_type [Value.TStr] (VStr c)) with true. cbn [negb].
          destruct V as [V|[m [-> _]]]; [destruct v; try contradiction|]; reflexivity.
        - unfold stores. cbn [flat_map fst snd]. rewrite L. eexists. reflexivity. }
      destruct M as [M [x X]]. destruct (any_value E out p F Pp) as [z [Z1 Z2]].
      cbn [foldE]. rewrite M. cbn [bind]. unfold append_unique at 1. rewrite Z1. cbn [bind commit].
      destruct (IH (full ++ [p]) (if z then out else out ++ [p]) P') as [out' [R [F' D']]].
      + destruct z; [exact F|]. apply Forall_app. auto.
      + rewrite stores_app, X. destruct z; [|rewrite stores_app, X; now constructor]. constructor; [exact D|]. eapply deduped_in; [exact D|]. exact (Z2 eq_refl x X).
      + exists out'. split; [|split; [exact F'|]].
        * destruct z; [exact R|]. rewrite map_app in R. exact R.
        * now rewrite <- app_assoc in D'.
  Qed.
  Lemma set_call_effect : forall E a k pairs full out, set_call b a k pairs -> Forall (set_pair b) out -> deduped (stores b full) (stores b out) ->
    exists out', values_set (pure_world E) (map the_value out) a k = (map the_value out', Ok tt) /\
      Forall (set_pair b) out' /\ deduped (stores b (full ++ pairs)) (stores b out').
  Proof.
    intros E a k pairs full out [K [D [P G]]] F X. rewrite (set_plainly _ _ _ _ D). destruct (parsed_pairs (pure_world E) a k K) as [A _].
    rewrite (A pairs P), (foldE_batches _ (fun s c0 v => commit s (do x <- mk_value c0 v; append_unique (py_eq E) s x))).
    exact (set_loop E pairs full out G F X).
  Qed.
  Lemma assigned_stores : forall out, Forall (set_pair b) out -> SpecServer.assigned b (map the_value out) = stores b out.
  Proof.
    intros out F. induction F as [|[c v] out [[d [C [_ S]]] V] F IH]; [reflexivity|]. cbn [fst snd] in C, V. subst c.
    unfold stores, SpecServer.assigned in *. cbn [map flat_map the_value fst snd path_of]. destruct (literal_of b v); [|exact IH].
    cbn [app]. rewrite IH, S. reflexivity.
  Qed.
  Lemma stores_nil : forall out, Forall (set_pair b) out -> stores b out = [] -> out = [].
  Proof.
    intros out F H. destruct F as [|p out [[c [C _]] V] F]; [reflexivity|]. exfalso. destruct p as [pc v]. cbn [fst snd] in *. subst pc.
    unfold stores in H. cbn [flat_map fst snd] in H. destruct (cell_literal v V) as [_ [l L]]. rewrite L in H. discriminate.
  Qed.

End Stored.

Section Rows.
  Context (b : backend).
  Definition row_kept (ps out : list (val * val)) : Prop := Forall (set_pair b) out /\ deduped (stores b ps) (stores b out).
  Lemma insert_inv : forall E b0 t H given, good_name (quote_of b) t ->
    Forall2 (fun bo g => insert_call b (snd bo) g) H given ->
    let h := program E ((b0, IInto (VStr t)) :: H) in
    let q := calls ins_step empty_insert h in
    all_succeed ins_step empty_insert h /\ i_replace q = false /\ i_tabs q = [MkTable (VStr t) VNone []] /\ i_dup q = [] /\ i_upd q = [] /\
    exists outs, i_rows q = map (map the_value) outs /\ Forall2 row_kept (List.concat given) outs.
  Proof.
    intros E b0 t H given G. revert given. induction H as [|[bo op] H IH] using rev_ind; intros given F.
    - inversion F; subst. cbn [program map calls fold_left all_succeed]. cbn [fst snd ins_step empty_insert].
      rewrite (one_table _ _ t G). repeat split; auto. exists []. repeat split; constructor.
    - apply PfLists.Forall2_snoc in F. destruct F as [given' [g [-> [F P]]]]. cbn [snd] in P. rewrite PfLists.concat_snoc.
      specialize (IH given' F). cbv zeta in IH |- *. rewrite app_comm_cons, PfLists.program_snoc, calls_snoc.
      set (q := calls ins_step empty_insert (program E ((b0, IInto (VStr t)) :: H))) in *.
      destruct IH as [A [R [T [D [U [outs [V FO]]]]]]].
      assert (K : exists q', ins_step (pure_world (with_be E bo)) q op = (q', Ok tt) /\ i_replace q' = i_replace q /\ i_tabs q' = i_tabs q /\ i_dup q' = i_dup q /\ i_upd q' = i_upd q /\
        exists outs, i_rows q' = map (map the_value) outs /\ Forall2 row_kept (List.concat given' ++ g) outs).
      { destruct q as [rp ig tabs rows dup cf upd]. cbn [i_replace i_tabs i_dup i_upd i_rows] in *. subst rows. destruct op; try contradiction; cbn [insert_call] in P.
        - destruct P as [ps [-> [P _]]]. destruct (set_call_effect b (with_be E bo) args kwds ps [] [] P) as [out' [Q [FO' DO']]]; [constructor|constructor|].
          eexists. cbn [ins_step]. unfold rows_add. change (@nil val) with (map the_value []). rewrite Q. cbn [lift1 fst snd]. split; [reflexivity|]. repeat (split; [reflexivity|]).
          exists (outs ++ [out']). split; [cbn [i_rows]; now rewrite map_app|]. apply Forall2_app; [exact FO|]. constructor; [|constructor]. split; assumption.
        - subst g. rewrite app_nil_r. eexists. split; [reflexivity|]. repeat (split; [reflexivity|]). exists outs. auto. }
      destruct K as [q' [Q [R' [T' [D' [U' K]]]]]]. split; [apply succeed_snoc; [exact A|]; fold q; now rewrite Q|].
      rewrite Q. cbn [fst]. rewrite R', T', D', U'. auto.
  Qed.
  Lemma row_given : forall out, Forall (set_pair b) out -> forall c,
    row_asked b (map the_value out) c = match last_for c (stores b out) with Some l => l | None => LNull end.
  Proof.
    intros out F c. unfold row_asked.
    assert (L : (last_for c (named (map the_value out)) = None /\ last_for c (stores b out) = None) \/
                exists x l, last_for c (named (map the_value out)) = Some x /\ literal_of b x = Some l /\ last_for c (stores b out) = Some l).
    { induction F as [|[d v] out [[e [C _]] V] F IH]; [left; now split|]. cbn [fst snd] in *. subst d. destruct (cell_literal b v V) as [_ [l L]].
      unfold stores, named in *. cbn [map flat_map the_value fst snd app] in *. rewrite L. cbn [app last_for].
      destruct IH as [[-> ->]|[x [m [-> [Y ->]]]]]; [|right; exists x, m; auto]. destruct (seqb c e); [right; exists v, l; auto|left; auto]. }
    destruct L as [[-> ->]|[x [l [-> [-> ->]]]]]; reflexivity.
  Qed.
End Rows.

Lemma insert_program : forall E b sv db b0 t H given, good_name (quote_of b) t ->
  Forall2 (fun bo g => insert_call b (snd bo) g) H given ->
  let rows := List.concat given in
  List.concat rows <> [] ->
  let h := program E ((b0, IInto (VStr t)) :: H) in
  let q := calls ins_step empty_insert h in
  all_succeed ins_step empty_insert h /\
  exists s st db' new, text (with_be E b) (VInsert q) = Ok s /\ understood (dialect_of b) s = Some st /\ execute sv st db = Some db' /\
    db' (name_segments t) = db (name_segments t) ++ new /\
    Forall2 (fun ps r => forall c, r c = match last_for c (stores b ps) with Some l => l | None => LNull end) rows new /\
    (forall p, p <> name_segments t -> db' p = db p).
Proof.
  intros E b sv db b0 t H given G F rows NR h q.
  destruct (insert_inv b E b0 t H given G F) as [A [R [T [D [U [outs [V FO]]]]]]]. fold h in A. fold h q in R, T, D, U, V. fold rows in FO.
  split; [exact A|].
  assert (GR : Forall (fun ps => Forall (set_pair b) ps /\ none_returns (stores b ps)) rows).
  { unfold rows. clear -F. induction F as [|[bo op] g H given P F IH]; [constructor|]. cbn [List.concat]. apply Forall_app. split; [|exact IH].
    cbn [snd] in P. destruct op; try contradiction; cbn [insert_call] in P; [|subst g; constructor].
    destruct P as [ps [-> [[_ [_ [_ P]]] N]]]. constructor; [now split|constructor]. }
  assert (NE : List.concat (map (map the_value) outs) <> []).
  { intros Q. apply NR. clear -Q FO GR. induction FO as [|ps out rows outs [P D] FO IH]; [reflexivity|]. cbn [map List.concat] in *.
    inversion GR as [|? ? [GP _] GR']; subst. apply app_eq_nil in Q. destruct Q as [Q1 Q2]. rewrite IH by assumption.
    apply map_eq_nil in Q1. subst out. rewrite (stores_nil b ps GP (deduped_nil _ _ D eq_refl)). reflexivity. }
  destruct (insert_rows (with_be E b) sv db q (VStr t) (name_segments t)) as [s [st [db' [new [X1 [X2 [X3 [X4 [X5 X6]]]]]]]]]; auto.
  { split; [exists (VStr t); split; [exact T|exact G]|]. split; [exact D|]. split; [exact U|]. rewrite V. split; [intros Q; apply NE; now rewrite Q|]. split; [exact NE|].
    clear -FO. induction FO as [|ps out rows outs [P _] FO IH]; [constructor|]. cbn [map]. constructor; [|exact IH]. clear -P.
    induction P as [|[c v] out [[d [Hc [Hg Hs]]] Hv] P IH]; [constructor|]. cbn [fst snd] in *. subst c. constructor; [|exact IH]. cbn [the_value fst snd with_be e_be].
    destruct (cell_literal b v Hv) as [L1 [l L2]]. rewrite L2. repeat split; try exact L1; try apply Hg; try exact Hs; discriminate. }
  exists s, st, db', new. split; [exact X1|]. split; [exact X2|]. split; [exact X3|]. split; [exact X4|]. split; [|exact X6].
  cbn [with_be e_be] in X5. rewrite V in X5. clear -X5 FO GR. revert new X5. induction FO as [|ps out rows outs [P D] FO IH]; intros new X5.
  - inversion X5. constructor.
  - inversion X5 as [|? r ? new' Hr Hn]; subst. inversion GR as [|? ? [GP GN] GR']; subst. constructor; [|apply IH; assumption].
    intros c. rewrite Hr, (row_given b out P c), (deduped_last _ _ D GN). reflexivity.
Qed.

(** ** SELECT *)
Section Selects.
  Context (b : backend).
  Lemma plain_data : forall p, plain_column b p -> PfLists.col_data p.
  Proof.
    intros p [[c [C _]] A]. split; [left; eauto|]. destruct A as [A|[a [A _]]]; [right; exact A|left; eauto].
  Qed.
  Lemma any_column : forall E out p, Forall PfLists.col_data out -> PfLists.col_data p -> exists z, anyM (fun q => pair_eq (py_eq E) q p) out = Ok z.
  Proof.
    intros E out p F P. induction F as [|q out Q F [z IH]]; [eexists; reflexivity|]. cbn [anyM].
    destruct (PfLists.col_data_eq (text E) q p Q P) as [[_ X]|[_ X]]; change (pair_eq (py_eq E) q p) with (pair_eq (pyeq (text E)) q p); rewrite X; cbn [ror]; eauto.
  Qed.
  Lemma columns_succeed : forall E ps out, Forall PfLists.col_data ps -> Forall PfLists.col_data out ->
    snd (foldE (fun s p => commit s (do x <- mk_column (fst p) (snd p); append_unique (pair_eq (py_eq E)) s x)) out ps) = Ok tt.
  Proof.
    intros E ps. induction ps as [|p ps IH]; intros out P F; [reflexivity|]. inversion P as [|? ? P1 P2]; subst. cbn [foldE].
    rewrite PfLists.mk_column_ok by (destruct P1; split; left; assumption). cbn [bind]. unfold append_unique.
    destruct (any_column E out p F P1) as [z ->]. cbn [bind commit]. apply IH; [exact P2|]. destruct z; [exact F|apply Forall_app; auto].
  Qed.
  Lemma columns_call_ok : forall E a k ps out, keys_ok a k -> alias_args a k ps -> Forall (plain_column b) ps -> Forall PfLists.col_data out ->
    snd (columns_add (pure_world E) out a k) = Ok tt.
  Proof.
    intros E a k ps out K A P F. unfold columns_add. destruct (parsed_names (pure_world E) a k K) as [X _].
    rewrite (X ps A), (foldE_batches _ (fun s c0 v => commit s (do x <- mk_column c0 v; append_unique (pair_eq (py_eq E)) s x))).
    apply columns_succeed; [|exact F]. eapply Forall_impl; [|exact P]. exact plain_data.
  Qed.
  Lemma orders_succeed : forall E ps out, Forall (fun p => name_arg (fst p) /\ exists d, direction (supper E) (snd p) d) ps ->
    Forall (fun o => name_arg (fst o)) out ->
    snd (foldE (fun s p => commit s (order_one (pure_world E) s (fst p) (snd p))) out ps) = Ok tt.
  Proof.
    intros E ps. induction ps as [|[c v] ps IH]; intros out P F; [reflexivity|]. inversion P as [|? ? [P1 [d D]] P2]; subst. cbn [foldE fst snd] in *.
    assert (Q : mk_sort E v = Ok d).
    { destruct (PfLists.sort_dir E v) as [[d' [D' Q]]|[X _]]; [|exfalso; eapply X; eauto]. now rewrite (PfLists.direction_fun _ _ _ _ D D'). }
    assert (O : exists s', order_one (pure_world E) out c v = Ok s' /\ Forall (fun o => name_arg (fst o)) s').
    { unfold order_one. destruct (PfLists.update_found E out c v P1 F) as [[I R]|[pre [s [post [-> [I R]]]]]]; rewrite R.
      - cbn [bind]. assert (C : check_type [Value.TStr; TInt] c = true) by (apply PfLists.check_name; auto). rewrite C. cbn [negb pure_world w_env]. rewrite Q.
        cbn [bind]. eexists. split; [reflexivity|]. apply Forall_app. split; [exact F|]. constructor; [exact P1|constructor].
      - rewrite Q. cbn [bind]. eexists. split; [reflexivity|]. apply Forall_app in F. destruct F as [F1 F2]. inversion F2; subst.
        apply Forall_app. split; [exact F1|]. constructor; assumption. }
    destruct O as [s' [-> O]]. cbn [commit]. exact (IH s' P2 O).
  Qed.
  Lemma orders_call_ok : forall E a k ps out, keys_ok a k -> alias_args a k ps ->
    Forall (fun p => (exists c, fst p = VStr c /\ good_name (quote_of b) c) /\ exists d, direction (supper E) (snd p) d) ps ->
    Forall (fun o => name_arg (fst o)) out -> snd (orders_add (pure_world E) out a k) = Ok tt.
  Proof.
    intros E a k ps out K A P F. unfold orders_add. destruct (parsed_names (pure_world E) a k K) as [X _]. rewrite (X ps A).
    change (snd (foldE (fun s it => let (c, v) := nth2 it in commit s (order_one (pure_world E) s c v)) out (batches ps)) = Ok tt).
    rewrite (foldE_batches _ (fun s c v => commit s (order_one (pure_world E) s c v))). apply orders_succeed; [|exact F].
    eapply Forall_impl; [|exact P]. intros p [[c [C _]] D]. split; [left; eauto|exact D].
  Qed.
  Lemma from_again : forall E t ts, good_name (quote_of b) t -> ts = [] \/ ts = [MkTable (VStr t) VNone []] ->
    tables_set (pure_world E) ts [VStr t] [] = ([MkTable (VStr t) VNone []], Ok tt).
  Proof.
    intros E t ts G [-> | ->]; [apply (one_table b E t G)|]. unfold tables_set.
    assert (T : truthy (VStr t) = true) by (destruct t; [destruct G as [_ G]; exfalso; apply G; reflexivity|reflexivity]).
    cbn [filter]. rewrite T.
    replace (parse_args (pure_world E) alias_opts [VStr t] []) with (Ok [[VStr t; VNone]]) by (destruct t; [discriminate T|reflexivity]).
    cbn [foldE nth2]. change (mk_table (VStr t) VNone) with (Ok (VStr t, VNone)). cbn [bind fst snd]. unfold append_unique. cbn [anyM].
    assert (Q : table_eq (w_eq (pure_world E)) (MkTable (VStr t) VNone []) (MkTable (VStr t) VNone []) = Ok true).
    { unfold table_eq. cbn [tb_name tb_alias tb_joins pure_world w_eq]. unfold py_eq. cbn [pyeq textual_eq is_none].
      rewrite (proj2 (seqb_eq t t) eq_refl). reflexivity. }
    rewrite Q. reflexivity.
  Qed.

End Selects.

Definition str_alias (p : val * val) : Prop := (exists c, fst p = VStr c) /\ (snd p = VNone \/ exists a, snd p = VStr a).
Lemma shown_same : forall sv r cols cols', Forall2 says_column cols cols' -> Forall str_alias cols ->
  map (show sv r) cols' = map (show_column r) cols.
Proof.
  intros sv r cols cols' F. induction F as [|[x a] [e o] cols cols' S F IH]; intros P; [reflexivity|]. inversion P as [|? ? [[c C] A] P']; subst.
  cbn [map fst snd] in *. rewrite (IH P'). f_equal. inversion S as [? ? ? ? X Y]; subst. cbn in X. injection X as <-.
  unfold show, show_column. cbn [fst snd]. destruct A as [-> |[a' ->]]; cbn in Y; [subst o|destruct Y as [_ ->]]; reflexivity.
Qed.
Lemma keys_same : forall sv ord ord', Forall2 says_order ord ord' -> Forall (fun p => exists c, fst p = VStr c) ord ->
  map (fun k => (fun r => cell sv r (fst k), snd k)) ord' = map sort_key ord.
Proof.
  intros sv ord ord' F. induction F as [|[x d] [e u] ord ord' S F IH]; intros P; [reflexivity|]. inversion P as [|? ? [c C] P']; subst.
  cbn [map fst snd] in *. subst x. rewrite (IH P'). f_equal. inversion S as [? ? X|? ? X]; subst; cbn in X; injection X as <-; reflexivity.
Qed.

(** ** Programs, for any reading of the conditions *)
Section Generic.
  Context (b : backend) (E : env) (TC : Type) (wc : backend -> list val -> kwargs -> list TC -> Prop)
    (cond : val -> Prop) (M : server -> list TC -> row -> bool)
    (M_app : forall sv l m rw, M sv (l ++ m) rw = M sv l rw && M sv m rw)
    (M_nil : forall sv rw, M sv [] rw = true)
    (effect : forall bo a k ts ps, wc bo a k ts -> Forall cond ps ->
       exists ps', conds_where (pure_world (with_be E bo)) KWhere ps a k = (ps', Ok tt) /\
         Forall cond ps' /\ (ps' = [] -> ts = [] /\ ps = []) /\
         forall sv rw, selected b sv ps' rw = selected b sv ps rw && M sv ts rw)
    (cond_fine : forall x, cond x -> cond_ok b x).
  Lemma delete_inv : forall b0 t H given, good_name (quote_of b) t ->
    Forall2 (fun bo ps => delete_call (wc (fst bo)) (snd bo) ps) H given ->
    let h := program E ((b0, DFrom [VStr t] []) :: H) in
    let q := calls del_step empty_delete h in
    all_succeed del_step empty_delete h /\ d_tabs q = [] /\ d_refs q = [MkTable (VStr t) VNone []] /\
    Forall cond (d_where q) /\ (List.concat given <> [] -> d_where q <> []) /\
    forall sv rw, selected b sv (d_where q) rw = M sv (List.concat given) rw.
  Proof.
    intros b0 t H given G. revert given. induction H as [|[bo op] H IH] using rev_ind; intros given F.
    - inversion F; subst. cbn [program map calls fold_left all_succeed]. cbn [fst snd del_step empty_delete].
      rewrite (one_table b _ t G). repeat split; auto; cbn; try constructor; congruence.
    - apply PfLists.Forall2_snoc in F. destruct F as [given' [ps [-> [F P]]]]. cbn [snd] in P. rewrite PfLists.concat_snoc.
      specialize (IH given' F). cbv zeta in IH |- *. rewrite app_comm_cons, PfLists.program_snoc, calls_snoc.
      set (q := calls del_step empty_delete (program E ((b0, DFrom [VStr t] []) :: H))) in *.
      destruct IH as [A [T [R [W [N S]]]]].
      assert (K : exists q', del_step (pure_world (with_be E bo)) q op = (q', Ok tt) /\ d_tabs q' = d_tabs q /\ d_refs q' = d_refs q /\
        Forall cond (d_where q') /\ (List.concat given' ++ ps <> [] -> d_where q' <> []) /\
        forall sv rw, selected b sv (d_where q') rw = M sv (List.concat given' ++ ps) rw).
      { destruct q as [ig tabs refs wh al]. cbn [d_tabs d_refs d_where] in *. destruct op; try contradiction; cbn [delete_call] in P.
        - destruct (effect bo args kwds ps wh P W) as [wh' [Q [W' [N' S']]]].
          exists (MkDel ig tabs refs wh' al). cbn [del_step]. rewrite Q. cbn [lift1 fst snd d_tabs d_refs d_where].
          split; [reflexivity|]. split; [reflexivity|]. split; [reflexivity|]. split; [exact W'|]. split.
          + intros X Y. destruct (N' Y) as [-> ->]. rewrite app_nil_r in X. now apply N.
          + intros sv rw. rewrite S', S, M_app. reflexivity.
        - subst ps. rewrite app_nil_r. eexists. split; [reflexivity|]. auto.
        - subst ps. rewrite app_nil_r. eexists. split; [reflexivity|]. auto.
        - subst ps. rewrite app_nil_r. eexists. split; [reflexivity|]. auto. }
      destruct K as [q' [Q [T' [R' K]]]]. split; [apply succeed_snoc; [exact A|]; fold q; now rewrite Q|].
      rewrite Q. cbn [fst]. split; [congruence|]. split; [congruence|exact K].
  Qed.
  Lemma delete_program : forall sv db b0 t H given, good_name (quote_of b) t ->
    Forall2 (fun bo ps => delete_call (wc (fst bo)) (snd bo) ps) H given ->
    List.concat given <> [] \/ delete_confirmed (map snd H) ->
    let h := program E ((b0, DFrom [VStr t] []) :: H) in
    let q := calls del_step empty_delete h in
    all_succeed del_step empty_delete h /\
    exists s st db', text (with_be E b) (VDelete q) = Ok s /\ understood (dialect_of b) s = Some st /\ execute sv st db = Some db' /\
      db' (name_segments t) = filter (fun r => negb (M sv (List.concat given) r)) (db (name_segments t)) /\
      (forall p, p <> name_segments t -> db' p = db p).
  Proof.
    intros sv db b0 t H given G F C h q. destruct (delete_inv b0 t H given G F) as [A [T [R [W [N S]]]]]. fold h in A. fold h q in T, R, W, N, S.
    split; [exact A|].
    assert (AL : d_where q <> [] \/ d_allow q = true).
    { destruct C as [C|C]; [left; now apply N|right]. apply del_allow_inv. unfold h, program. cbn [map]. rewrite map_map. cbn [snd]. exact C. }
    destruct (delete_rows (with_be E b) sv db q (VStr t) (name_segments t)) as [s [st [db' [X1 [X2 [X3 [X4 X5]]]]]]]; auto.
    { eapply Forall_impl; [|exact W]. exact cond_fine. }
    exists s, st, db'. split; [exact X1|]. split; [exact X2|]. split; [exact X3|]. split; [|exact X5].
    cbn [with_be e_be] in X4. rewrite X4. apply filter_ext. intros r. now rewrite S.
  Qed.

  (** ** UPDATE *)
  Lemma update_inv : forall b0 t H given, good_name (quote_of b) t ->
    Forall2 (fun bo g => update_call b (wc (fst bo)) (snd bo) g) H given ->
    let h := program E ((b0, UTable (VStr t)) :: H) in
    let q := calls upd_step empty_update h in
    all_succeed upd_step empty_update h /\ u_tabs q = [MkTable (VStr t) VNone []] /\
    Forall cond (u_where q) /\ (List.concat (map snd given) <> [] -> u_where q <> []) /\
    (forall sv rw, selected b sv (u_where q) rw = M sv (List.concat (map snd given)) rw) /\
    exists out, u_vals q = map the_value out /\ Forall (set_pair b) out /\ deduped (stores b (List.concat (map fst given))) (stores b out).
  Proof.
    intros b0 t H given G. revert given. induction H as [|[bo op] H IH] using rev_ind; intros given F.
    - inversion F; subst. cbn [program map calls fold_left all_succeed]. cbn [fst snd upd_step empty_update].
      rewrite (one_table b _ t G). repeat split; auto; cbn; try constructor; try congruence. exists []. repeat split; constructor.
    - apply PfLists.Forall2_snoc in F. destruct F as [given' [g [-> [F P]]]]. cbn [snd] in P. rewrite !map_app. cbn [map]. rewrite !PfLists.concat_snoc.
      specialize (IH given' F). cbv zeta in IH |- *. rewrite app_comm_cons, PfLists.program_snoc, calls_snoc.
      set (q := calls upd_step empty_update (program E ((b0, UTable (VStr t)) :: H))) in *.
      destruct IH as [A [T [W [N [S [out [V [FO DO]]]]]]]].
      assert (K : exists q', upd_step (pure_world (with_be E bo)) q op = (q', Ok tt) /\ u_tabs q' = u_tabs q /\
        Forall cond (u_where q') /\ (List.concat (map snd given') ++ snd g <> [] -> u_where q' <> []) /\
        (forall sv rw, selected b sv (u_where q') rw = M sv (List.concat (map snd given') ++ snd g) rw) /\
        exists out, u_vals q' = map the_value out /\ Forall (set_pair b) out /\ deduped (stores b (List.concat (map fst given') ++ fst g)) (stores b out)).
      { destruct q as [ig tabs vals wh al]. cbn [u_tabs u_vals u_where] in *. subst vals. destruct op; try contradiction; cbn [update_call] in P.
        - destruct P as [P1 P2]. rewrite P2, app_nil_r. destruct (set_call_effect b (with_be E bo) args kwds (fst g) (List.concat (map fst given')) out P1 FO DO) as [out' [Q R]].
          eexists. cbn [upd_step]. rewrite Q. cbn [lift1 fst snd]. split; [reflexivity|]. cbn [u_tabs u_vals u_where].
          split; [reflexivity|]. split; [exact W|]. split; [exact N|]. split; [exact S|]. exists out'. split; [reflexivity|exact R].
        - destruct P as [P1 P2]. rewrite P1, app_nil_r. destruct (effect bo args kwds (snd g) wh P2 W) as [wh' [Q [W' [N' S']]]].
          eexists. cbn [upd_step]. rewrite Q. cbn [lift1 fst snd]. split; [reflexivity|]. cbn [u_tabs u_vals u_where].
          split; [reflexivity|]. split; [exact W'|]. split; [|split; [|exists out; auto]].
          + intros X Y. destruct (N' Y) as [X1 ->]. rewrite X1, app_nil_r in X. now apply N.
          + intros sv rw. rewrite S', S, M_app. reflexivity.
        - subst g. cbn [fst snd]. rewrite !app_nil_r. eexists. split; [reflexivity|]. repeat split; auto. exists out. auto.
        - subst g. cbn [fst snd]. rewrite !app_nil_r. eexists. split; [reflexivity|]. repeat split; auto. exists out. auto.
        - subst g. cbn [fst snd]. rewrite !app_nil_r. eexists. split; [reflexivity|]. repeat split; auto. exists out. auto. }
      destruct K as [q' [Q [T' K]]]. split; [apply succeed_snoc; [exact A|]; fold q; now rewrite Q|].
      rewrite Q. cbn [fst]. split; [congruence|exact K].
  Qed.
  Lemma update_program : forall sv db b0 t H given, good_name (quote_of b) t ->
    Forall2 (fun bo g => update_call b (wc (fst bo)) (snd bo) g) H given ->
    let sets := List.concat (map fst given) in let pairs := List.concat (map snd given) in
    sets <> [] -> none_returns (stores b sets) -> pairs <> [] \/ update_confirmed (map snd H) ->
    let h := program E ((b0, UTable (VStr t)) :: H) in
    let q := calls upd_step empty_update h in
    all_succeed upd_step empty_update h /\
    exists s st db', text (with_be E b) (VUpdate q) = Ok s /\ understood (dialect_of b) s = Some st /\ execute sv st db = Some db' /\
      Forall2 (fun old new => forall c, new c =
        if M sv pairs old
        then match last_for c (stores b sets) with Some l => l | None => old c end
        else old c) (db (name_segments t)) (db' (name_segments t)) /\
      (forall p, p <> name_segments t -> db' p = db p).
  Proof.
    intros sv db b0 t H given G F sets pairs NS NR C h q.
    destruct (update_inv b0 t H given G F) as [A [T [W [N [S [out [V [FO DO]]]]]]]]. fold h in A. fold h q in T, W, N, S, V. fold pairs in N, S. fold sets in DO.
    split; [exact A|].
    assert (AL : u_where q <> [] \/ u_allow q = true).
    { destruct C as [C|C]; [left; now apply N|right]. apply upd_allow_inv. unfold h, program. cbn [map]. rewrite map_map. cbn [snd]. exact C. }
    assert (FS : Forall (set_pair b) sets).
    { unfold sets. clear -F. induction F as [|[bo op] g H given P F IH]; [constructor|]. cbn [map List.concat]. apply Forall_app. split; [|exact IH].
      cbn [snd] in P. destruct op; try contradiction; cbn [update_call] in P; try (subst g; constructor).
      - destruct P as [[_ [_ [_ P]]] _]. exact P.
      - destruct P as [-> _]. constructor. }
    assert (OUT : out <> []) by (intros ->; apply NS, (stores_nil b sets FS); exact (deduped_nil _ _ DO eq_refl)).
    destruct (update_rows (with_be E b) sv db q (VStr t) (name_segments t)) as [s [st [db' [X1 [X2 [X3 [X4 X5]]]]]]]; auto.
    { split; [rewrite T; discriminate|]. split; [rewrite T; exact (bare_table b t G)|].
      split; [rewrite V; destruct out; [congruence|discriminate]|]. split; [|eapply Forall_impl; [|exact W]; exact cond_fine].
      rewrite V. clear -FO. induction FO as [|[c v] out [[d [Hc [Hg Hs]]] Hv] FO IH]; [constructor|]. cbn [fst snd] in *. subst c. constructor; [|exact IH].
      cbn [the_value fst snd]. destruct (cell_literal b v Hv) as [L1 [l L2]]. split; [exact Hg|]. split; [exact L1|]. cbn [with_be e_be]. rewrite L2. discriminate. }
    exists s, st, db'. split; [exact X1|]. split; [exact X2|]. split; [exact X3|]. split; [|exact X5].
    cbn [with_be e_be] in X4.
    revert X4. generalize (db' (name_segments t)). induction (db (name_segments t)) as [|r rs IH]; intros [|r' rs'] X4; inversion X4; subst; constructor; auto.
    intros c. rewrite H3, S, V, (assigned_stores b out FO), (deduped_last _ _ DO NR). reflexivity.
  Qed.

  (** ** SELECT *)
  Definition no_groups (q : selq val) : Prop :=
    s_opts q = no_selopts /\ s_group q = [] /\ s_having q = [] /\ o_file (s_out q) = None.
  Lemma select_inv : forall t H given, good_name (quote_of b) t ->
    Forall2 (fun bo g => select_call b (wc (fst bo)) t (supper E) (snd bo) g) H given ->
    let h := program E H in
    let q := calls sel_step empty_select h in
    all_succeed sel_step empty_select h /\ no_groups q /\
    (s_tabs q = [] \/ s_tabs q = [MkTable (VStr t) VNone []]) /\ (In (SFrom [VStr t] []) (map snd H) -> s_tabs q = [MkTable (VStr t) VNone []]) /\
    Forall cond (s_where q) /\
    (forall sv rw, selected b sv (s_where q) rw = M sv (flat_map ab_where given) rw) /\
    (Forall PfLists.col_data (s_cols q) /\ first_occurrences (flat_map ab_columns given) (s_cols q)) /\
    (Forall (fun o => name_arg (fst o)) (s_order q) /\ SpecLists.ordered_list (supper E) (flat_map ab_order given) (s_order q)).
  Proof.
    intros t H given G F. cbv zeta.
    assert (HC : forall H given, Forall2 (fun bo g => select_call b (wc (fst bo)) t (supper E) (snd bo) g) H given ->
      Forall PfLists.col_data (s_cols (calls sel_step empty_select (program E H))) /\
      first_occurrences (flat_map ab_columns given) (s_cols (calls sel_step empty_select (program E H)))).
    { clear. intros H given F. rewrite flat_map_concat_map. apply PfLists.columns_history.
      - unfold SpecLists.columns_asked. induction F as [|[bo op] g H given P F IH]; [constructor|]. cbn [map snd]. constructor; [|exact IH].
        cbn [snd] in P. destruct op; cbn [select_call] in P; try contradiction.
        + destruct P as [K [A [Q _]]]. split; [exact K|]. apply (req_items _ _ _ (ab_columns g)); [exact A|].
          clear -Q. induction Q as [|p l Q L IH]; [constructor|]. constructor; [|exact IH]. destruct (plain_data b p Q). split; left; assumption.
        + destruct P as [_ [_ ->]]. reflexivity.
        + exact (proj1 (proj2 P)).
        + exact (proj1 (proj2 (proj2 (proj2 P)))).
        + destruct P as [_ ->]. reflexivity.
        + destruct P as [_ ->]. reflexivity.
        + subst g. reflexivity.
      - unfold data_items. induction F as [|[bo op] g H given P F IH]; [constructor|]. cbn [map List.concat]. apply Forall_app. split; [|exact IH].
        cbn [snd] in P. destruct op; cbn [select_call] in P; try contradiction.
        + destruct P as [_ [_ [Q _]]]. eapply Forall_impl; [|exact Q]. intros p [[c [-> _]] [A|[a [A _]]]]; rewrite A; split; reflexivity.
        + destruct P as [_ [_ ->]]. constructor.
        + rewrite (proj1 (proj2 P)). constructor.
        + rewrite (proj1 (proj2 (proj2 (proj2 P)))). constructor.
        + destruct P as [_ ->]. constructor.
        + destruct P as [_ ->]. constructor.
        + subst g. constructor. }
    assert (HO : forall H given, Forall2 (fun bo g => select_call b (wc (fst bo)) t (supper E) (snd bo) g) H given ->
      Forall (fun o => name_arg (fst o)) (s_order (calls sel_step empty_select (program E H))) /\
      SpecLists.ordered_list (supper E) (flat_map ab_order given) (s_order (calls sel_step empty_select (program E H)))).
    { clear. intros H given F. rewrite flat_map_concat_map. apply PfLists.order_history.
      unfold SpecLists.order_asked. induction F as [|[bo op] g H given P F IH]; [constructor|]. cbn [map snd]. constructor; [|exact IH].
      cbn [snd] in P. destruct op; cbn [select_call] in P; try contradiction.
      - exact (proj2 (proj2 (proj2 (proj2 P)))).
      - destruct P as [_ [_ ->]]. reflexivity.
      - exact (proj2 (proj2 P)).
      - destruct P as [K [A [Q _]]]. split; [exact K|]. right. exists (ab_order g). split; [exact A|]. split.
        + eapply Forall_impl; [|exact Q]. intros p [[c [C _]] _]. left. eauto.
        + clear -Q. induction Q as [|p l [_ Q] L IH]; constructor; assumption.
      - destruct P as [_ ->]. reflexivity.
      - destruct P as [_ ->]. reflexivity.
      - subst g. reflexivity. }
    assert (MM : all_succeed sel_step empty_select (program E H) /\ no_groups (calls sel_step empty_select (program E H)) /\
      (s_tabs (calls sel_step empty_select (program E H)) = [] \/ s_tabs (calls sel_step empty_select (program E H)) = [MkTable (VStr t) VNone []]) /\
      (In (SFrom [VStr t] []) (map snd H) -> s_tabs (calls sel_step empty_select (program E H)) = [MkTable (VStr t) VNone []]) /\
      Forall cond (s_where (calls sel_step empty_select (program E H))) /\
      forall sv rw, selected b sv (s_where (calls sel_step empty_select (program E H))) rw = M sv (flat_map ab_where given) rw).
    { revert given F. induction H as [|[bo op] H IH] using rev_ind; intros given F.
      - inversion F; subst. cbn. repeat split; auto. intros [].
      - apply PfLists.Forall2_snoc in F. destruct F as [given' [g [-> [F P]]]]. cbn [snd] in P. rewrite flat_map_app. cbn [flat_map]. rewrite app_nil_r.
        specialize (IH given' F). destruct (HC H given' F) as [C1 _], (HO H given' F) as [O1 _]. rewrite PfLists.program_snoc, calls_snoc, map_app. cbn [map snd].
        set (q := calls sel_step empty_select (program E H)) in *. destruct IH as [A [NG [T [TI [W S]]]]].
        assert (K : exists q', sel_step (pure_world (with_be E bo)) q op = (q', Ok tt) /\ no_groups q' /\
          (s_tabs q' = s_tabs q /\ op <> SFrom [VStr t] [] \/ s_tabs q' = [MkTable (VStr t) VNone []]) /\ Forall cond (s_where q') /\
          forall sv rw, selected b sv (s_where q') rw = selected b sv (s_where q) rw && M sv (ab_where g) rw).
        { assert (NW : ab_where g = [] -> forall sv rw, selected b sv (s_where q) rw = selected b sv (s_where q) rw && M sv (ab_where g) rw)
            by (intros X sv rw; rewrite X; rewrite M_nil; now rewrite andb_true_r).
          destruct op; cbn [select_call] in P; try contradiction.
          - destruct P as [P1 [P2 [P3 [P4 P5]]]]. pose proof (columns_call_ok b (with_be E bo) args kwds _ (s_cols q) P1 P2 P3 C1) as X.
            exists (with_cols q (fst (columns_add (pure_world (with_be E bo)) (s_cols q) args kwds))). split.
            + cbn [sel_step lift1]. rewrite <- X. reflexivity.
            + split; [exact NG|]. split; [left; split; [reflexivity|discriminate]|]. split; [exact W|]. exact (NW P4).
          - destruct P as [-> [-> ->]]. exists (with_tabs q [MkTable (VStr t) VNone []]). split.
            + cbn [sel_step lift1]. rewrite (from_again b _ t _ G T). reflexivity.
            + split; [exact NG|]. split; [right; reflexivity|]. split; [exact W|]. exact (NW eq_refl).
          - destruct P as [P [P4 P5]]. destruct (effect bo args kwds (ab_where g) (s_where q) P W) as [wh' [Q [W' [_ S']]]].
            exists (with_where q wh'). split; [cbn [sel_step lift1]; rewrite Q; reflexivity|].
            split; [exact NG|]. split; [left; split; [reflexivity|discriminate]|]. split; [exact W'|exact S'].
          - destruct P as [P1 [P2 [P3 [P4 P5]]]]. pose proof (orders_call_ok b (with_be E bo) args kwds _ (s_order q) P1 P2 P3 O1) as X.
            exists (with_order q (fst (orders_add (pure_world (with_be E bo)) (s_order q) args kwds))). split.
            + cbn [sel_step lift1]. rewrite <- X. reflexivity.
            + split; [exact NG|]. split; [left; split; [reflexivity|discriminate]|]. split; [exact W|]. exact (NW P5).
          - destruct P as [P ->]. apply (limit_rejects (pure_world (with_be E bo)) q l o) in P. 
            exists (fst (sel_step (pure_world (with_be E bo)) q (SLimit l o))). split; [rewrite <- P; apply surjective_pairing|].
            split; [exact NG|]. split; [left; split; [reflexivity|discriminate]|]. split; [exact W|]. exact (NW eq_refl).
          - destruct P as [P ->]. apply (offset_rejects (pure_world (with_be E bo)) q o) in P. 
            exists (fst (sel_step (pure_world (with_be E bo)) q (SOffset o))). split; [rewrite <- P; apply surjective_pairing|].
            split; [exact NG|]. split; [left; split; [reflexivity|discriminate]|]. split; [exact W|]. exact (NW eq_refl).
          - subst g. eexists. split; [reflexivity|]. split; [exact NG|]. split; [left; split; [reflexivity|discriminate]|]. split; [exact W|]. exact (NW eq_refl). }
        destruct K as [q' [Q [NG' [T' [W' S']]]]]. split; [apply succeed_snoc; [exact A|]; fold q; now rewrite Q|].
        rewrite Q. cbn [fst]. split; [exact NG'|]. split; [|split; [|split; [exact W'|]]].
        + destruct T' as [[-> _]|T']; [exact T|now right].
        + intros I. destruct T' as [[-> X]|T']; [|exact T']. apply in_app_or in I. destruct I as [I|[I|[]]]; [now apply TI|congruence].
        + intros sv rw. rewrite S', S, M_app. reflexivity. }
    destruct MM as [M1 [M2 [M3 [M4 [M5 M6]]]]]. repeat (split; [assumption|]). split; [now apply HC|now apply HO].
  Qed.
  Lemma select_program_fine : forall sv db t H given, good_name (quote_of b) t ->
    Forall2 (fun bo g => select_call b (wc (fst bo)) t (supper E) (snd bo) g) H given ->
    In (SFrom [VStr t] []) (map snd H) ->
    bounded (wanted_limit (map snd H)) -> bounded (wanted_offset (map snd H)) ->
    (forall c a k v, In (c, VStr a) (flat_map ab_columns given) -> In (VStr k, v) (flat_map ab_order given) -> name_segments a <> name_segments k) ->
    let h := program E H in
    let q := calls sel_step empty_select h in
    all_succeed sel_step empty_select h /\ (select_fine b q /\ first_occurrences (flat_map ab_columns given) (s_cols q)) /\
    exists s st cols order, text (with_be E b) (VSelect q) = Ok s /\ understood (dialect_of b) s = Some st /\
      first_occurrences (flat_map ab_columns given) cols /\ SpecLists.ordered_list (supper E) (flat_map ab_order given) order /\
      forall le out, answers sv le db st out <->
        program_answers le db (name_segments t) (columns_asked cols) (M sv (flat_map ab_where given)) order
          (wanted_limit (map snd H)) (wanted_offset (map snd H)) out.
  Proof.
    intros sv db t H given G F I BL BO NA h q.
    destruct (select_inv t H given G F) as [A [[N1 [N2 [N3 N4]]] [_ [T [W [S [[C1 C2] [O1 O2]]]]]]]]. fold h in A. fold h q in N1, N2, N3, N4, T, W, S, C1, C2, O1, O2.
    specialize (T I).
    assert (PC : Forall (plain_column b) (s_cols q)).
    { assert (X : Forall (plain_column b) (flat_map ab_columns given)).
      { clear -F. induction F as [|[bo op] g H given P F IH]; [constructor|]. cbn [flat_map]. apply Forall_app. split; [|exact IH].
        cbn [snd] in P. destruct op; cbn [select_call] in P; try contradiction.
        - exact (proj1 (proj2 (proj2 P))).
        - destruct P as [_ [_ ->]]. constructor.
        - rewrite (proj1 (proj2 P)). constructor.
        - rewrite (proj1 (proj2 (proj2 (proj2 P)))). constructor.
        - destruct P as [_ ->]. constructor.
        - destruct P as [_ ->]. constructor.
        - subst g. constructor. }
      rewrite Forall_forall in X |- *. intros p J. apply X. now apply (PfLists.fo_in _ _ _ C2). }
    assert (PO : Forall (fun p => exists c, fst p = VStr c /\ good_name (quote_of b) c) (s_order q)).
    { assert (X : Forall (fun p => exists c, fst p = VStr c /\ good_name (quote_of b) c) (flat_map ab_order given)).
      { clear -F. induction F as [|[bo op] g H given P F IH]; [constructor|]. cbn [flat_map]. apply Forall_app. split; [|exact IH].
        cbn [snd] in P. destruct op; cbn [select_call] in P; try contradiction.
        - rewrite (proj2 (proj2 (proj2 (proj2 P)))). constructor.
        - destruct P as [_ [_ ->]]. constructor.
        - rewrite (proj2 (proj2 P)). constructor.
        - destruct P as [_ [_ [Q _]]]. eapply Forall_impl; [|exact Q]. intros p [Y _]. exact Y.
        - destruct P as [_ ->]. constructor.
        - destruct P as [_ ->]. constructor.
        - subst g. constructor. }
      rewrite Forall_forall in X |- *. intros [c d] J. destruct O2 as [O2 _].
      assert (J' : In c (map fst (flat_map ab_order given))) by (apply (PfLists.fo_in _ _ _ O2); apply in_map_iff; exists (c, d); auto).
      apply in_map_iff in J'. destruct J' as [p [<- J']]. exact (X p J'). }
    assert (FINE : select_fine b q).
    { split; [|split; [|split; [|split; [|split; [|split]]]]].
      - eapply Forall_impl; [|exact PC]. intros p [[c [-> Gc]] Al]. split; [exact Gc|]. destruct Al as [-> |[a [-> Ga]]]; [exact Logic.I|exact Ga].
      - rewrite T. now apply bare_table.
      - eapply Forall_impl; [|exact W]. exact cond_fine.
      - rewrite N2. constructor.
      - rewrite N3. constructor.
      - eapply Forall_impl; [|exact PO]. intros p [c [-> Gc]]. exact Gc.
      - exact N4. }
    split; [exact A|]. split; [split; [exact FINE|exact C2]|].
    destruct (select_statement (with_be E b) q FINE) as [s [st [X1 [X2 X3]]]].
    cbn [with_be e_be] in X2, X3.
    exists s, st, (s_cols q), (s_order q). split; [exact X1|]. split; [exact X2|]. split; [exact C2|]. split; [exact O2|].
    assert (L : s_limit q = MkLimits (wanted_limit (map snd H)) (wanted_offset (map snd H))).
    { unfold q. rewrite limit_state. unfold h, program. rewrite map_map. reflexivity. }
    clearbody q. destruct q as [op cols tabs wh gr ha ord lims out fu]. cbn [s_opts s_cols s_tabs s_where s_group s_having s_order s_limit s_out] in *.
    subst op gr ha tabs lims.
    inversion X3 as [? ? ? ? ? ? ? ? ? ? ? op' cols' tabs' wh' gr' ha' ord' Y1 Y2 Y3 Y4 Y5 Y6 Y7]. clear X3. subst.
    cbn in Y1. apply Permutation_sym, Permutation_nil in Y1. subst op'.
    inversion Y5; subst. destruct ha'; [contradiction Y6|]. inversion Y3 as [|? src ? ? Y8 Y9]; subst. inversion Y9; subst. inversion Y8 as [? ? ? ? ? ? V1 V2 V3]; subst.
    cbn in V1, V2. injection V1 as <-. subst. inversion V3; subst.
    assert (SA : Forall str_alias (columns_asked cols)).
    { destruct cols as [|p cols]; [constructor; [|constructor]; split; [eexists; reflexivity|now left]|]. cbn [columns_asked].
      eapply Forall_impl; [|exact PC]. intros p' [[c [C _]] Al]. split; [eauto|]. destruct Al as [Al|[a [Al _]]]; eauto. }
    assert (SO : Forall (fun p => exists c, fst p = VStr c) ord) by (eapply Forall_impl; [|exact PO]; intros p [c [C _]]; eauto).
    assert (K : forall rw, kept (compare sv) (cell sv rw) wh' = M sv (flat_map ab_where given) rw).
    { intros rw. rewrite (kept_selected (with_be E b) sv wh wh' rw Y4). apply S. }
    assert (NA' : forall a, In (Some a) (map snd cols') -> ~ In (EColumn a) (map fst ord')).
    { intros a J1 J2. apply in_map_iff in J1. destruct J1 as [[e o] [Q1 J1]]. cbn [snd] in Q1. subst o.
      apply in_map_iff in J2. destruct J2 as [[e2 u] [Q2 J2]]. cbn [fst] in Q2. subst e2.
      assert (Z : exists c x, In (c, VStr x) cols /\ name_segments x = a).
      { clear -Y2 J1 SA. assert (Q : exists c x, In (c, VStr x) (columns_asked cols) /\ name_segments x = a).
        { revert J1 SA. induction Y2 as [|[x al] c' l l' Q F IH]; intros J1 SA; [destruct J1|]. inversion SA as [|? ? [_ S1] S2]; subst. destruct J1 as [-> |J1].
          - inversion Q as [? ? ? ? U V]; subst. cbn [snd] in S1. destruct S1 as [-> |[y ->]]; [discriminate V|]. cbn in V. destruct V as [_ V]. injection V as ->.
            exists x, y. split; [now left|reflexivity].
          - destruct (IH J1 S2) as [c [y [U V]]]. exists c, y. split; [now right|exact V]. }
        destruct Q as [c [x [Q1 Q2]]]. exists c, x. split; [|exact Q2]. destruct cols; [|exact Q1]. destruct Q1 as [Q1|[]]. discriminate Q1. }
      destruct Z as [c [x [J3 <-]]].
      assert (Z : exists k d, In (VStr k, d) ord /\ name_segments k = name_segments x).
      { clear -Y7 J2 SO. revert J2 SO. induction Y7 as [|[y d] o' l l' Q F IH]; intros J2 SO; [destruct J2|]. inversion SO as [|? ? [k S1] S2]; subst. destruct J2 as [-> |J2].
        - cbn [fst] in S1. subst y. exists k, d. split; [now left|]. inversion Q as [? ? U|? ? U]; subst; cbn in U; now injection U.
        - destruct (IH J2 S2) as [k2 [d2 [U V]]]. exists k2, d2. split; [now right|exact V]. }
      destruct Z as [k [d [J4 Z]]].
      assert (J5 : In (VStr k) (map fst (flat_map ab_order given))).
      { destruct O2 as [O2 _]. apply (PfLists.fo_in _ _ _ O2). apply in_map_iff. exists (VStr k, d). auto. }
      apply in_map_iff in J5. destruct J5 as [[k' v] [Q5 J5]]. cbn [fst] in Q5. subst k'.
      apply (NA c x k v); [now apply (PfLists.fo_in _ _ _ C2)|exact J5|now symmetry]. }
    intros le res. split; intros R.
    - inversion R as [? ? ? ? ? ? ? rows B1 B2 B3 B4 B5]; subst.
      rewrite (keys_same sv ord ord' Y7 SO) in B5. rewrite (filter_ext _ _ K) in B4.
      rewrite (map_ext _ _ (fun r => shown_same sv r _ _ Y2 SA)). apply pans; assumption.
    - inversion R as [rows B4 B5]; subst. rewrite <- (map_ext _ _ (fun r => shown_same sv r _ _ Y2 SA)).
      apply ans; auto.
      + rewrite (filter_ext _ _ K). exact B4.
      + rewrite (keys_same sv ord ord' Y7 SO). exact B5.
  Qed.
  Lemma select_program : forall sv db t H given, good_name (quote_of b) t ->
    Forall2 (fun bo g => select_call b (wc (fst bo)) t (supper E) (snd bo) g) H given ->
    In (SFrom [VStr t] []) (map snd H) ->
    bounded (wanted_limit (map snd H)) -> bounded (wanted_offset (map snd H)) ->
    (forall c a k v, In (c, VStr a) (flat_map ab_columns given) -> In (VStr k, v) (flat_map ab_order given) -> name_segments a <> name_segments k) ->
    let h := program E H in
    let q := calls sel_step empty_select h in
    all_succeed sel_step empty_select h /\
    exists s st cols order, text (with_be E b) (VSelect q) = Ok s /\ understood (dialect_of b) s = Some st /\
      first_occurrences (flat_map ab_columns given) cols /\ SpecLists.ordered_list (supper E) (flat_map ab_order given) order /\
      forall le out, answers sv le db st out <->
        program_answers le db (name_segments t) (columns_asked cols) (M sv (flat_map ab_where given)) order
          (wanted_limit (map snd H)) (wanted_offset (map snd H)) out.
  Proof.
    intros sv db t H given G F I BL BO NA h q. destruct (select_program_fine sv db t H given G F I BL BO NA) as [A [_ X]].
    exact (Logic.conj A X).
  Qed.
End Generic.

(** ** Programs whose conditions are pairs *)
Definition pairs_effect b E bo a k ts ps (W : where_call b a k ts) (F : Forall (where_cond b) ps) :
  exists ps', conds_where (pure_world (with_be E bo)) KWhere ps a k = (ps', Ok tt) /\
    Forall (where_cond b) ps' /\ (ps' = [] -> ts = [] /\ ps = []) /\
    forall sv rw, selected b sv ps' rw = selected b sv ps rw && matches b sv ts rw :=
  match where_call_effect b (with_be E bo) a k ts ps W F with
  | ex_intro _ ps' (Logic.conj A (Logic.conj B (Logic.conj C (Logic.conj _ D)))) => ex_intro _ ps' (Logic.conj A (Logic.conj B (Logic.conj C D)))
  end.
Definition pairs_delete b E := delete_program b E _ (fun _ => where_call b) (where_cond b) (matches b) (matches_app b) (fun _ _ => eq_refl) (pairs_effect b E) (where_cond_ok b).
Definition pairs_update b E := update_program b E _ (fun _ => where_call b) (where_cond b) (matches b) (matches_app b) (fun _ _ => eq_refl) (pairs_effect b E) (where_cond_ok b).
Definition pairs_select b E := select_program b E _ (fun _ => where_call b) (where_cond b) (matches b) (matches_app b) (fun _ _ => eq_refl) (pairs_effect b E) (where_cond_ok b).
