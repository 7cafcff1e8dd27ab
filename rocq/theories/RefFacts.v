(** Proofs about references: the regular expression, strip, splitting and quoting. *)
From Coq Require Import Lia ZifyBool ZifyN.
From Verif Require Import Base BaseFacts NumFmt Value Regex Backend Eq Render SpecLex SpecRef LiteralFacts.
Open Scope N_scope.

(** ** Regular expressions by derivatives *)
Inductive rxl : regex -> str -> Prop :=
| rl_eps : rxl RxEps []
| rl_chr : forall p c, p c = true -> rxl (RxChr p) [c]
| rl_cat : forall a b s t, rxl a s -> rxl b t -> rxl (RxCat a b) (s ++ t)
| rl_altl : forall a b s, rxl a s -> rxl (RxAlt a b) s
| rl_altr : forall a b s, rxl b s -> rxl (RxAlt a b) s
| rl_star0 : forall a, rxl (RxStar a) []
| rl_star : forall a s t, s <> [] -> rxl a s -> rxl (RxStar a) t -> rxl (RxStar a) (s ++ t).

Lemma rxl_cat_inv : forall a b s, rxl (RxCat a b) s -> exists u v, s = u ++ v /\ rxl a u /\ rxl b v.
Proof. intros a b s H. inversion H; subst. eauto. Qed.
Lemma rxl_alt_inv : forall a b s, rxl (RxAlt a b) s -> rxl a s \/ rxl b s.
Proof. intros a b s H. inversion H; subst; auto. Qed.
Lemma rxl_chr_inv : forall p s, rxl (RxChr p) s -> exists c, s = [c] /\ p c = true.
Proof. intros p s H. inversion H; subst. eauto. Qed.
Lemma rxl_eps_inv : forall s, rxl RxEps s -> s = [].
Proof. intros s H. now inversion H. Qed.
Lemma rxl_none_inv : forall s, ~ rxl RxNone s.
Proof. intros s H. inversion H. Qed.
Lemma rxl_star_inv : forall a s, rxl (RxStar a) s ->
  s = [] \/ exists u v, u <> [] /\ s = u ++ v /\ rxl a u /\ rxl (RxStar a) v.
Proof. intros a s H. inversion H; subst; [auto|]. right. eexists _, _. eauto. Qed.

Lemma nullable_ok : forall x, nullable x = true <-> rxl x [].
Proof.
  induction x; simpl.
  - split; [discriminate|]. intros H; inversion H.
  - split; [constructor|reflexivity].
  - split; [discriminate|]. intros H; inversion H.
  - rewrite andb_true_iff, IHx1, IHx2. split.
    + intros [H1 H2]. apply (rl_cat _ _ [] [] H1 H2).
    + intros H. apply rxl_cat_inv in H. destruct H as [u [v [E [H1 H2]]]].
      symmetry in E. apply app_eq_nil in E. destruct E; subst. auto.
  - rewrite orb_true_iff, IHx1, IHx2. split.
    + intros [H|H]; [now apply rl_altl|now apply rl_altr].
    + intros H. now apply rxl_alt_inv.
  - split; [constructor|reflexivity].
Qed.
Lemma scat_ok : forall a b s, rxl (scat a b) s <-> rxl (RxCat a b) s.
Proof.
  assert (N1 : forall b s, rxl RxNone s <-> rxl (RxCat RxNone b) s).
  { intros b s; split; intros H; [now apply rxl_none_inv in H|].
    apply rxl_cat_inv in H. destruct H as [u [v [_ [H _]]]]. now apply rxl_none_inv in H. }
  assert (N2 : forall a s, rxl RxNone s <-> rxl (RxCat a RxNone) s).
  { intros a s; split; intros H; [now apply rxl_none_inv in H|].
    apply rxl_cat_inv in H. destruct H as [u [v [_ [_ H]]]]. now apply rxl_none_inv in H. }
  assert (E1 : forall b s, rxl b s <-> rxl (RxCat RxEps b) s).
  { intros b s; split; intros H; [apply (rl_cat _ _ [] s rl_eps H)|].
    apply rxl_cat_inv in H. destruct H as [u [v [-> [H1 H2]]]]. apply rxl_eps_inv in H1. now subst. }
  assert (E2 : forall a s, rxl a s <-> rxl (RxCat a RxEps) s).
  { intros a s; split; intros H; [rewrite <- (app_nil_r s); now constructor; [|constructor]|].
    apply rxl_cat_inv in H. destruct H as [u [v [-> [H1 H2]]]]. apply rxl_eps_inv in H2. subst. now rewrite app_nil_r. }
  intros a b s. destruct a, b; unfold scat; first [apply N1|apply N2|apply E1|apply E2|reflexivity].
Qed.
Lemma salt_ok : forall a b s, rxl (salt a b) s <-> rxl a s \/ rxl b s.
Proof.
  assert (A : forall a b s, rxl (RxAlt a b) s <-> rxl a s \/ rxl b s).
  { intros; split; [apply rxl_alt_inv|]. intros [H|H]; [now apply rl_altl|now apply rl_altr]. }
  intros a b s. pose proof (rxl_none_inv s). destruct a, b; unfold salt; rewrite ?A; tauto.
Qed.
Lemma deriv_ok : forall x c s, rxl (deriv c x) s <-> rxl x (c :: s).
Proof.
  induction x as [| |p|a IHa b IHb|a IHa b IHb|a IHa]; intros c s; simpl.
  - split; intros H; inversion H.
  - split; intros H; inversion H.
  - destruct (p c) eqn:P; split; intros H.
    + apply rxl_eps_inv in H. subst. now constructor.
    + apply rxl_chr_inv in H. destruct H as [c' [E _]]. inversion E; subst. constructor.
    + now apply rxl_none_inv in H.
    + apply rxl_chr_inv in H. destruct H as [c' [E P']]. inversion E; subst. congruence.
  - assert (C : rxl (scat (deriv c a) b) s <-> exists u v, s = u ++ v /\ rxl a (c :: u) /\ rxl b v).
    { rewrite scat_ok. split.
      - intros H. apply rxl_cat_inv in H. destruct H as [u [v [-> [H1 H2]]]]. apply IHa in H1. eauto.
      - intros [u [v [-> [H1 H2]]]]. apply IHa in H1. now constructor. }
    assert (D : rxl (RxCat a b) (c :: s) <->
                (exists u v, s = u ++ v /\ rxl a (c :: u) /\ rxl b v) \/ (rxl a [] /\ rxl b (c :: s))).
    { split.
      - intros H. apply rxl_cat_inv in H. destruct H as [[|c' u] [v [E [H1 H2]]]].
        + right. simpl in E. subst v. auto.
        + simpl in E. injection E as <- ->. left. eauto.
      - intros [[u [v [-> [H1 H2]]]]|[H1 H2]].
        + apply (rl_cat _ _ (c :: u) v H1 H2).
        + apply (rl_cat _ _ [] (c :: s) H1 H2). }
    destruct (nullable a) eqn:N.
    + apply nullable_ok in N. rewrite salt_ok, C, D, IHb. tauto.
    + rewrite C, D. split; [tauto|]. intros [H|[H _]]; [exact H|]. apply nullable_ok in H. congruence.
  - rewrite salt_ok, IHa, IHb. split.
    + intros [H|H]; [now apply rl_altl|now apply rl_altr].
    + apply rxl_alt_inv.
  - rewrite scat_ok. split.
    + intros H. apply rxl_cat_inv in H. destruct H as [u [v [-> [H1 H2]]]]. apply IHa in H1.
      apply (rl_star a (c :: u) v); [discriminate|exact H1|exact H2].
    + intros H. apply rxl_star_inv in H. destruct H as [H|[u [v [Hu [E [H1 H2]]]]]]; [discriminate|].
      destruct u as [|c' u]; [congruence|]. simpl in E. injection E as <- ->.
      apply IHa in H1. now constructor.
Qed.
Theorem rx_match_ok : forall s x, rx_match x s = true <-> rxl x s.
Proof.
  induction s as [|c s IH]; intros x; simpl; [apply nullable_ok|]. rewrite IH. apply deriv_ok.
Qed.

(** ** The language of is_reference *)
Section Lang.
  Context (q : chr).
  Definition rx_inside := RxAlt (rx_not [q]) (RxCat (rx_char q) (rx_char q)).
  Lemma rx_char_ok : forall s, rxl (rx_char q) s <-> s = [q].
  Proof.
    intros s; split; intros H.
    - apply rxl_chr_inv in H. destruct H as [c [-> H]]. apply N.eqb_eq in H. now subst.
    - subst. constructor. apply N.eqb_refl.
  Qed.
  Lemma rx_inside_ok : forall s, rxl rx_inside s <-> (exists c, s = [c] /\ c <> q) \/ s = [q; q].
  Proof.
    intros s; split.
    - intros H. apply rxl_alt_inv in H. destruct H as [H|H].
      + apply rxl_chr_inv in H. destruct H as [c [-> H]]. left. exists c. split; [reflexivity|].
        simpl in H. rewrite orb_false_r, negb_true_iff in H. now apply N.eqb_neq.
      + apply rxl_cat_inv in H. destruct H as [u [v [-> [H1 H2]]]].
        apply rx_char_ok in H1, H2. subst. auto.
    - intros [[c [-> H]]| ->].
      + apply rl_altl. constructor. simpl. rewrite orb_false_r, negb_true_iff. now apply N.eqb_neq.
      + apply rl_altr. apply (rl_cat _ _ [q] [q]); now apply rx_char_ok.
  Qed.
  Lemma star_inside : forall s, rxl (RxStar rx_inside) s <-> quoted_inside q s.
  Proof.
    intros s; split.
    - remember (List.length s) as n eqn:L. revert s L.
      induction n as [n IH] using (well_founded_induction Wf_nat.lt_wf).
      intros s L H. apply rxl_star_inv in H. destruct H as [->|[u [v [Hu [-> [H1 H2]]]]]]; [constructor|].
      apply rx_inside_ok in H1. destruct H1 as [[c [-> Hc]]| ->]; simpl.
      + constructor; [exact Hc|]. eapply IH; [|reflexivity|exact H2]. subst. simpl. lia.
      + apply qi_double. eapply IH; [|reflexivity|exact H2]. subst. simpl. lia.
    - intros H. induction H as [|c s Hc H IH|s H IH].
      + constructor.
      + apply (rl_star _ [c] s); [discriminate| |exact IH]. apply rx_inside_ok. left. eauto.
      + apply (rl_star _ [q; q] s); [discriminate| |exact IH]. apply rx_inside_ok. auto.
  Qed.
  Lemma quoted_inside_cons : forall u v, rxl rx_inside u -> quoted_inside q v -> quoted_inside q (u ++ v).
  Proof.
    intros u v H1 H2. apply rx_inside_ok in H1. destruct H1 as [[c [-> Hc]]| ->]; [now constructor|now apply qi_double].
  Qed.
  Lemma rx_quoted_ok : forall s, rxl (rx_quoted q) s <-> quoted_ident q s.
  Proof.
    intros s; split.
    - intros H. apply rxl_cat_inv in H. destruct H as [u [v [-> [H1 H]]]].
      apply rxl_cat_inv in H. destruct H as [w [x [-> [H2 H3]]]].
      apply rx_char_ok in H1, H3. subst u x. simpl.
      apply rxl_cat_inv in H2. destruct H2 as [y [z [-> [H4 H5]]]].
      apply star_inside in H5. apply (quoted_ident_intro q (y ++ z)).
      + apply rx_inside_ok in H4. destruct H4 as [[c [-> _]]| ->]; discriminate.
      + now apply quoted_inside_cons.
    - intros H. destruct H as [s Hs H].
      apply (rl_cat _ _ [q] (s ++ [q])); [now apply rx_char_ok|].
      apply rl_cat; [|now apply rx_char_ok].
      inversion H as [|c s' Hc H' E|s' H' E]; subst; [congruence| |].
      + apply (rl_cat _ _ [c] s'); [apply rx_inside_ok; left; eauto|now apply star_inside].
      + apply (rl_cat _ _ [q; q] s'); [apply rx_inside_ok; auto|now apply star_inside].
  Qed.
  Definition rx_bare := rx_plus (rx_not [q; c_dot; c_sp]).
  Lemma rx_bare1 : forall s, rxl (rx_not [q; c_dot; c_sp]) s <-> exists c, s = [c] /\ c <> q /\ c <> 46 /\ c <> 32.
  Proof.
    intros s; split.
    - intros H. apply rxl_chr_inv in H. destruct H as [c [-> H]]. exists c. split; [reflexivity|].
      simpl in H. rewrite orb_false_r, negb_true_iff, !orb_false_iff in H. unfold c_dot, c_sp in H.
      rewrite !N.eqb_neq in H. tauto.
    - intros [c [-> H]]. constructor. simpl. rewrite orb_false_r, negb_true_iff, !orb_false_iff.
      unfold c_dot, c_sp. rewrite !N.eqb_neq. tauto.
  Qed.
  Lemma rx_bare_ok : forall s, rxl rx_bare s <-> bare_ident q s.
  Proof.
    assert (S : forall s, rxl (RxStar (rx_not [q; c_dot; c_sp])) s <-> Forall (fun c => c <> q /\ c <> 46 /\ c <> 32) s).
    { intros s; split.
      - remember (List.length s) as n eqn:L. revert s L.
        induction n as [n IH] using (well_founded_induction Wf_nat.lt_wf).
        intros s L H. apply rxl_star_inv in H. destruct H as [->|[u [v [Hu [-> [H1 H2]]]]]]; [constructor|].
        apply rx_bare1 in H1. destruct H1 as [c [-> Hc]]. simpl. constructor; [exact Hc|].
        eapply IH; [|reflexivity|exact H2]. subst. simpl. lia.
      - induction s as [|c s IH]; intros H; [constructor|]. inversion H; subst.
        apply (rl_star _ [c] s); [discriminate| |now apply IH]. apply rx_bare1. eauto. }
    intros s; split.
    - intros H. apply rxl_cat_inv in H. destruct H as [u [v [-> [H1 H2]]]].
      apply rx_bare1 in H1. destruct H1 as [c [-> Hc]]. apply S in H2. split; [discriminate|]. simpl. now constructor.
    - intros [Hn H]. destruct s as [|c s]; [congruence|]. inversion H; subst.
      apply (rl_cat _ _ [c] s); [apply rx_bare1; eauto|now apply S].
  Qed.
  Definition rx_tail := RxCat (rx_char c_dot) (RxAlt (rx_quoted q) rx_bare).
  Lemma rx_tail_ok : forall s, rxl rx_tail s <-> exists b, s = 46 :: b /\ ident q b.
  Proof.
    intros s; split.
    - intros H. apply rxl_cat_inv in H. destruct H as [u [v [-> [H1 H2]]]].
      apply rxl_chr_inv in H1. destruct H1 as [c [-> H1]]. apply N.eqb_eq in H1. subst c.
      exists v. split; [reflexivity|]. apply rxl_alt_inv in H2.
      destruct H2 as [H2|H2]; [left; now apply rx_quoted_ok|right; now apply rx_bare_ok].
    - intros [b [-> [H|H]]]; apply (rl_cat _ _ [46] b); try (constructor; reflexivity).
      + apply rl_altl. now apply rx_quoted_ok.
      + apply rl_altr. now apply rx_bare_ok.
  Qed.
  Theorem rx_reference_ok : forall s, rxl (rx_reference q) s <-> reference_path q s.
  Proof.
    intros s; split.
    - intros H. apply rxl_cat_inv in H. destruct H as [u [v [-> [H1 H2]]]]. apply rx_quoted_ok in H1.
      apply rxl_alt_inv in H2. destruct H2 as [H2|H2].
      + apply rxl_eps_inv in H2. subst. rewrite app_nil_r. now constructor.
      + apply rxl_alt_inv in H2. destruct H2 as [H2|H2].
        * apply rx_tail_ok in H2. destruct H2 as [b [-> H2]]. now apply (path2 q u b).
        * apply rxl_cat_inv in H2. destruct H2 as [w [x [-> [H2 H3]]]].
          apply rx_tail_ok in H2, H3. destruct H2 as [b [-> H2]], H3 as [c [-> H3]].
          now apply (path3 q u b c).
    - intros H. destruct H as [a Ha|a b Ha Hb|a b c Ha Hb Hc].
      + rewrite <- (app_nil_r a). apply rl_cat; [now apply rx_quoted_ok|]. apply rl_altl. constructor.
      + apply rl_cat; [now apply rx_quoted_ok|]. apply rl_altr. apply rl_altl. apply rx_tail_ok. now exists b.
      + apply rl_cat; [now apply rx_quoted_ok|]. apply rl_altr. apply rl_altr.
        apply (rl_cat _ _ (46 :: b) (46 :: c)); apply rx_tail_ok; eauto.
  Qed.
End Lang.

(** ** strip *)
Lemma whitespace_ok : forall c, is_space c = true <-> whitespace c.
Proof.
  intros c. unfold is_space, whitespace. split.
  - intros H. simpl. lia.
  - intros H. simpl in H. repeat (destruct H as [<-|H]; [reflexivity|]). contradiction.
Qed.
Lemma lstrip_spec : forall s, exists l, s = l ++ lstrip s /\ Forall whitespace l
  /\ (forall c x, lstrip s = c :: x -> ~ whitespace c).
Proof.
  induction s as [|c s [l [H1 [H2 H3]]]]; simpl.
  - exists []. repeat split; [constructor|discriminate].
  - destruct (is_space c) eqn:E.
    + exists (c :: l). simpl. rewrite <- H1. split; [reflexivity|]. split; [|exact H3].
      constructor; [now apply whitespace_ok|exact H2].
    + exists []. repeat split; [constructor|]. intros c' x H. injection H as <- <-.
      rewrite <- whitespace_ok, E. discriminate.
Qed.
Lemma rstrip_spec : forall s, exists r, s = rstrip s ++ r /\ Forall whitespace r
  /\ (forall c x, rstrip s = x ++ [c] -> ~ whitespace c).
Proof.
  intros s. unfold rstrip. destruct (lstrip_spec (rev s)) as [l [H1 [H2 H3]]].
  exists (rev l). repeat split.
  - rewrite <- rev_app_distr, <- H1, rev_involutive. reflexivity.
  - apply Forall_rev. exact H2.
  - intros c x H. apply (H3 c (rev x)). rewrite <- (rev_involutive (lstrip (rev s))), H, rev_app_distr. reflexivity.
Qed.
Lemma strip_stripped : forall s, stripped s (strip s).
Proof.
  intros s. unfold strip. destruct (lstrip_spec s) as [l [H1 [H2 H3]]].
  destruct (rstrip_spec (lstrip s)) as [r [H4 [H5 H6]]].
  exists l, r. repeat split; auto.
  - rewrite <- H4. exact H1.
  - intros c x H. apply (H3 c (x ++ r)). rewrite H4, H. reflexivity.
Qed.
Lemma ws_dec : forall c, {whitespace c} + {~ whitespace c}.
Proof. intros c. destruct (is_space c) eqn:E; [left|right]; rewrite <- whitespace_ok, E; [reflexivity|discriminate]. Qed.
Lemma lstrip_app_ws : forall l m, Forall whitespace l -> lstrip (l ++ m) = lstrip m.
Proof.
  induction l as [|c l IH]; intros m H; [reflexivity|]. inversion H; subst. simpl.
  apply whitespace_ok in H2. rewrite H2. now apply IH.
Qed.
Lemma lstrip_id : forall m, (forall c x, m = c :: x -> ~ whitespace c) -> lstrip m = m.
Proof.
  intros [|c m] H; [reflexivity|]. simpl. destruct (is_space c) eqn:E; [|reflexivity].
  apply whitespace_ok in E. now destruct (H c m eq_refl).
Qed.
Lemma stripped_strip : forall s m, stripped s m -> strip s = m.
Proof.
  intros s m [l [r [-> [Hl [Hr [H1 H2]]]]]]. unfold strip. rewrite lstrip_app_ws by exact Hl.
  destruct m as [|c m].
  - simpl. rewrite <- (app_nil_r r), lstrip_app_ws by exact Hr. reflexivity.
  - rewrite lstrip_id; [|intros c' x H; simpl in H; injection H as <- _; now apply (H1 c m)].
    unfold rstrip. rewrite rev_app_distr, lstrip_app_ws by (apply Forall_rev; exact Hr).
    rewrite lstrip_id; [apply rev_involutive|].
    intros c' x H. apply (H2 c' (rev x)). rewrite <- (rev_involutive (c :: m)), H. reflexivity.
Qed.
Lemma ref_quote_of : forall b, ref_quote b = quote_of b.
Proof. destruct b; reflexivity. Qed.
Theorem is_reference_ok : forall b s, is_reference b s = true <-> reference_shaped (quote_of b) s.
Proof.
  intros b s. unfold is_reference. rewrite rx_match_ok, rx_reference_ok, ref_quote_of. split.
  - intros H. exists (strip s). split; [apply strip_stripped|exact H].
  - intros [m [H1 H2]]. apply stripped_strip in H1. now rewrite H1.
Qed.

(** ** Splitting *)
Lemma split_ref_plain : forall q x rest acc, (forall c, In c x -> c <> q /\ c <> 46) ->
  split_ref q (x ++ rest) acc 0 = split_ref q rest (rev x ++ acc) 0.
Proof.
  intros q x; induction x as [|c x IH]; intros rest acc H; [reflexivity|].
  cbn [app split_ref]. destruct (H c (or_introl eq_refl)) as [H1 H2]. apply N.eqb_neq in H1, H2.
  unfold c_dot. rewrite H1, H2, IH; [|intros; apply H; now right]. cbn [rev]. now rewrite <- app_assoc.
Qed.
Lemma span_not_app : forall q x rest, ~ In q x -> span_not q (x ++ q :: rest) = (x, q :: rest).
Proof.
  intros q x; induction x as [|c x IH]; intros rest H; cbn [app span_not].
  - now rewrite N.eqb_refl.
  - destruct (c =? q) eqn:E; [apply N.eqb_eq in E; subst; now destruct H; left|].
    rewrite IH; [reflexivity|]. intros X; apply H; now right.
Qed.
Lemma split_ref_skip : forall q x rest acc, split_ref q (x ++ rest) acc (List.length x) = split_ref q rest acc 0.
Proof. intros q x; induction x; intros rest acc; [reflexivity|]. simpl. apply IHx. Qed.
Lemma split_ref_quoted : forall q x rest acc, x <> [] -> ~ In q x ->
  split_ref q (q :: x ++ q :: rest) acc 0 = rev acc :: x :: split_ref q rest [] 0.
Proof.
  intros q x rest acc Hx H. cbn [split_ref]. rewrite N.eqb_refl.
  unfold quoted_chunk. rewrite span_not_app by exact H. destruct x as [|c x]; [congruence|].
  do 2 f_equal.
  replace ((c :: x) ++ q :: rest) with (((c :: x) ++ [q]) ++ rest) by now rewrite <- app_assoc.
  replace (S (List.length (c :: x))) with (List.length ((c :: x) ++ [q])) by (rewrite app_length; simpl; lia).
  apply split_ref_skip.
Qed.
Lemma split_ref_dot : forall q rest acc, q <> 46 -> split_ref q (46 :: rest) acc 0 = rev acc :: split_ref q rest [] 0.
Proof.
  intros q rest acc H. cbn [split_ref]. destruct (46 =? q) eqn:E; [apply N.eqb_eq in E; congruence|]. reflexivity.
Qed.
Definition nonempty (l : list str) : list str := filter (fun i => negb (is_nilb i)) l.
Lemma segments_cur : forall s cur acc, cur = rev acc -> forall q, q <> 46 -> ~ In q s ->
  nonempty (split_ref q s acc 0) = segments cur s.
Proof.
  induction s as [|c s IH]; intros cur acc -> q Hq H.
  - simpl. destruct (rev acc); reflexivity.
  - cbn [segments]. destruct (c =? 46) eqn:E.
    + apply N.eqb_eq in E. subst c. rewrite split_ref_dot by exact Hq.
      unfold nonempty. cbn [filter]. fold (nonempty (split_ref q s [] 0)).
      rewrite (IH [] [] eq_refl q Hq) by (intros X; apply H; now right).
      destruct (rev acc); reflexivity.
    + assert (Hc : c <> q) by (intros ->; apply H; now left).
      change (c :: s) with ([c] ++ s).
      rewrite (split_ref_plain q [c] s acc) by (intros y [<-|[]]; apply N.eqb_neq in E; auto).
      apply (IH (rev acc ++ [c]) ([c] ++ acc)); [reflexivity|exact Hq|]. intros X; apply H; now right.
Qed.
Lemma reference_noquote : forall b s, ~ In (quote_of b) s ->
  reference b s = sjoin [46] (map (quote_part (quote_of b)) (name_segments s)).
Proof.
  intros b s H. unfold reference. rewrite ref_quote_of.
  fold (nonempty (split_ref (quote_of b) s [] 0)).
  rewrite (segments_cur s [] []); [reflexivity|reflexivity|destruct b; discriminate|exact H].
Qed.
Lemma segments_ok : forall s cur x, In x (segments cur s) -> (cur = [] \/ ~ In 46 cur) ->
  x <> [] /\ ~ In 46 x /\ (forall c, In c x -> In c cur \/ In c s).
Proof.
  induction s as [|c s IH]; intros cur x H Hc.
  - cbn [segments] in H. destruct cur as [|c0 cur]; [destruct H|]. destruct H as [<-|[]].
    split; [discriminate|]. split; [|auto]. destruct Hc as [Hc|Hc]; [discriminate|exact Hc].
  - cbn [segments] in H. destruct (c =? 46) eqn:E.
    + apply in_app_iff in H. destruct H as [H|H].
      * destruct cur as [|c0 cur]; [destruct H|]. destruct H as [<-|[]].
        split; [discriminate|]. split; [|auto]. destruct Hc as [Hc|Hc]; [discriminate|exact Hc].
      * destruct (IH [] x H (or_introl eq_refl)) as [H1 [H2 H3]]. repeat split; auto.
        intros y Hy. destruct (H3 y Hy) as [[]|]; right; now right.
    + apply N.eqb_neq in E.
      assert (Hc' : cur ++ [c] = [] \/ ~ In 46 (cur ++ [c])).
      { right. rewrite in_app_iff. intros [X|[X|[]]]; [|congruence].
        destruct Hc as [->|Hc]; [destruct X|auto]. }
      destruct (IH _ x H Hc') as [H1 [H2 H3]]. repeat split; auto.
      intros y Hy. destruct (H3 y Hy) as [X|X]; [|right; now right].
      apply in_app_iff in X. destruct X as [X|[->|[]]]; [now left|right; now left].
Qed.
Lemma name_segments_ok : forall s x, In x (name_segments s) -> x <> [] /\ ~ In 46 x /\ (forall c, In c x -> In c s).
Proof.
  intros s x H. destruct (segments_ok s [] x H (or_introl eq_refl)) as [H1 [H2 H3]].
  repeat split; auto. intros c Hc. now destruct (H3 c Hc) as [[]|].
Qed.

(** Splitting a rendered path gives its segments back. *)
Lemma split_rendered : forall q l, q <> 46 -> q <> 42 ->
  (forall x, In x l -> x <> [] /\ ~ In q x /\ (x = [42] \/ True)) ->
  nonempty (split_ref q (sjoin [46] (map (quote_part q) l)) [] 0) = l.
Proof.
  intros q l Hq Hs. induction l as [|x l IH]; intros H; [reflexivity|].
  destruct (H x (or_introl eq_refl)) as [Hx [Hqx _]].
  assert (IH' : nonempty (split_ref q (sjoin [46] (map (quote_part q) l)) [] 0) = l)
    by (apply IH; intros; apply H; now right).
  assert (HD : forall acc, split_ref q ([46] ++ sjoin [46] (map (quote_part q) l)) acc 0
               = rev acc :: split_ref q (sjoin [46] (map (quote_part q) l)) [] 0)
    by (intros; now apply split_ref_dot).
  cbn [map]. destruct (seqb x [c_star]) eqn:E.
  - apply seqb_eq in E. subst x.
    assert (P : forall rest acc, split_ref q ([c_star] ++ rest) acc 0 = split_ref q rest ([c_star] ++ acc) 0).
    { intros rest acc. rewrite split_ref_plain; [reflexivity|].
      intros c [<-|[]]; unfold c_star; split; congruence. }
    change (quote_part q [c_star]) with [c_star].
    destruct l as [|y l].
    + cbn [map sjoin]. rewrite <- (app_nil_r [c_star]), P. reflexivity.
    + change (sjoin [46] ([c_star] :: map (quote_part q) (y :: l)))
        with ([c_star] ++ [46] ++ sjoin [46] (map (quote_part q) (y :: l))).
      rewrite P, HD. unfold nonempty. cbn [filter]. fold (nonempty (split_ref q (sjoin [46] (map (quote_part q) (y :: l))) [] 0)).
      rewrite IH'. reflexivity.
  - assert (Q : quote_part q x = q :: x ++ [q]) by (unfold quote_part; now rewrite E). rewrite Q. clear Q.
    assert (P : forall rest, split_ref q ((q :: x ++ [q]) ++ rest) [] 0 = [] :: x :: split_ref q rest [] 0).
    { intros rest. cbn [app]. rewrite <- app_assoc. cbn [app]. now rewrite split_ref_quoted. }
    destruct l as [|y l].
    + cbn [map sjoin]. rewrite <- (app_nil_r (q :: x ++ [q])), P. unfold nonempty. simpl.
      destruct x; [congruence|reflexivity].
    + change (sjoin [46] ((q :: x ++ [q]) :: map (quote_part q) (y :: l)))
        with ((q :: x ++ [q]) ++ [46] ++ sjoin [46] (map (quote_part q) (y :: l))).
      rewrite P, HD. unfold nonempty. cbn [filter rev is_nilb negb].
      fold (nonempty (split_ref q (sjoin [46] (map (quote_part q) (y :: l))) [] 0)).
      rewrite IH'. destruct x; [congruence|reflexivity].
Qed.
Theorem reference_idem : forall b s, ~ In (quote_of b) s -> reference b (reference b s) = reference b s.
Proof.
  intros b s H. rewrite (reference_noquote b s H).
  unfold reference at 1. rewrite ref_quote_of. fold (nonempty (split_ref (quote_of b) (sjoin [46] (map (quote_part (quote_of b)) (name_segments s))) [] 0)).
  rewrite split_rendered; [reflexivity|destruct b; discriminate|destruct b; discriminate|].
  intros x Hx. apply name_segments_ok in Hx. destruct Hx as [H1 [H2 H3]]. repeat split; auto.
Qed.

(** ** Lexing a rendered path *)
Lemma lex_id : forall d s acc rest, ~ In (d_ident d) s -> not_first (d_ident d) rest ->
  lex d (LId acc) (s ++ d_ident d :: rest) = TId (acc ++ s) :: lex d LCode rest.
Proof.
  intros d s; induction s as [|c s IH]; intros acc rest H Hr.
  - cbn [app lex]. rewrite N.eqb_refl, app_nil_r. destruct rest as [|c r]; [reflexivity|].
    destruct (c =? d_ident d) eqn:E; [|reflexivity]. apply N.eqb_eq in E. subst. now destruct (Hr r).
  - cbn [app lex]. destruct (c =? d_ident d) eqn:E; [apply N.eqb_eq in E; subst; now destruct H; left|].
    rewrite IH; [|intros X; apply H; now right|exact Hr]. now rewrite <- app_assoc.
Qed.
Lemma ident_of : forall b, d_ident (dialect_of b) = quote_of b.
Proof. destruct b; reflexivity. Qed.
Lemma lex_open_id : forall b x, lex (dialect_of b) LCode (quote_of b :: x) = lex (dialect_of b) (LId []) x.
Proof. destruct b; reflexivity. Qed.
Lemma lex_quote_part : forall b x rest, ~ In (quote_of b) x -> not_first (quote_of b) rest ->
  lex (dialect_of b) LCode (quote_part (quote_of b) x ++ rest) = segment_token x :: lex (dialect_of b) LCode rest.
Proof.
  intros b x rest Hx Hr. unfold quote_part. destruct (seqb x [c_star]) eqn:E.
  - apply seqb_eq in E. subst x. destruct b; reflexivity.
  - cbn [app]. rewrite lex_open_id, <- app_assoc. cbn [app]. rewrite <- ident_of.
    rewrite lex_id by (now rewrite ident_of). f_equal. unfold segment_token.
    destruct x as [|c x]; [reflexivity|]. destruct (N.eqb_spec c 42) as [->|Hc].
    + destruct x; [discriminate E|reflexivity].
    + destruct c as [|p]; [reflexivity|].
      do 6 (destruct p as [p|p|]; try reflexivity). congruence.
Qed.
Lemma lex_path : forall b l rest, (forall x, In x l -> ~ In (quote_of b) x) -> not_first (quote_of b) rest ->
  lex (dialect_of b) LCode (sjoin [46] (map (quote_part (quote_of b)) l) ++ rest)
  = path_tokens l ++ lex (dialect_of b) LCode rest.
Proof.
  intros b l; induction l as [|x l IH]; intros rest H Hr; [reflexivity|].
  destruct l as [|y l].
  - cbn [map sjoin path_tokens app]. apply lex_quote_part; [apply H; now left|exact Hr].
  - change (sjoin [46] (map (quote_part (quote_of b)) (x :: y :: l)))
      with (quote_part (quote_of b) x ++ [46] ++ sjoin [46] (map (quote_part (quote_of b)) (y :: l))).
    rewrite <- !app_assoc, lex_quote_part; [|apply H; now left|destruct b; intros r X; discriminate].
    change (path_tokens (x :: y :: l)) with (segment_token x :: TCode 46 :: path_tokens (y :: l)).
    cbn [app]. f_equal.
    assert (D : forall z, lex (dialect_of b) LCode (46 :: z) = TCode 46 :: lex (dialect_of b) LCode z)
      by (destruct b; reflexivity).
    rewrite D. f_equal. apply IH; [intros; apply H; now right|exact Hr].
Qed.

(** ** Reference-shaped strings without doubled quotes *)
Lemma inside_no_double : forall q s, quoted_inside q s -> ~ doubled q s -> ~ In q s.
Proof.
  intros q s H; induction H as [|c s Hc H IH|s H IH]; intros D; [tauto| |].
  - intros [->|X]; [congruence|]. apply IH; [|exact X]. intros [a [b ->]]. apply D. now exists (c :: a), b.
  - destruct D. now exists [], s.
Qed.
Lemma doubled_app_l : forall q a b, doubled q a -> doubled q (a ++ b).
Proof. intros q a b [x [y ->]]. exists x, (y ++ b). now rewrite <- app_assoc. Qed.
Lemma doubled_app_r : forall q a b, doubled q b -> doubled q (a ++ b).
Proof. intros q a b [x [y ->]]. exists (a ++ x), y. now rewrite <- app_assoc. Qed.

Section Clean.
  Context (q : chr) (Hq : q <> 46).
  (** [clean rest k]: whatever is pending, the parts cut from [rest] have no quote. *)
  Definition parts_clean (s : str) : Prop :=
    forall acc, ~ In q acc -> forall x, In x (split_ref q s acc 0) -> ~ In q x.
  Lemma clean_plain : forall x rest, (forall c, In c x -> c <> q /\ c <> 46) -> parts_clean rest -> parts_clean (x ++ rest).
  Proof.
    intros x rest H C acc Ha y Hy. rewrite split_ref_plain in Hy by exact H.
    apply (C (rev x ++ acc)); [|exact Hy]. rewrite in_app_iff, <- in_rev. intros [X|X]; [|auto].
    now destruct (H q X).
  Qed.
  Lemma clean_dot : forall rest, parts_clean rest -> parts_clean (46 :: rest).
  Proof.
    intros rest C acc Ha y Hy. rewrite split_ref_dot in Hy by exact Hq. destruct Hy as [<-|Hy].
    - now rewrite <- in_rev.
    - now apply (C []).
  Qed.
  Lemma clean_quoted : forall x rest, x <> [] -> ~ In q x -> parts_clean rest -> parts_clean (q :: x ++ q :: rest).
  Proof.
    intros x rest Hx Hqx C acc Ha y Hy. rewrite split_ref_quoted in Hy by assumption.
    destruct Hy as [<-|[<-|Hy]]; [now rewrite <- in_rev|exact Hqx|now apply (C [])].
  Qed.
  Lemma clean_nil : parts_clean [].
  Proof. intros acc Ha y [<-|[]]. now rewrite <- in_rev. Qed.
  Lemma clean_ident_q : forall a rest, quoted_ident q a -> ~ doubled q a -> parts_clean rest -> parts_clean (a ++ rest).
  Proof.
    intros a rest H D C. destruct H as [s Hs H]. cbn [app]. rewrite <- app_assoc. cbn [app].
    apply clean_quoted; [exact Hs| |exact C]. apply inside_no_double; [exact H|].
    intros X. apply D. change (q :: s ++ [q]) with ([q] ++ s ++ [q]). now apply doubled_app_r, doubled_app_l.
  Qed.
  Lemma clean_ident : forall a rest, ident q a -> ~ doubled q a -> parts_clean rest -> parts_clean (a ++ rest).
  Proof.
    intros a rest [H|[H1 H2]] D C; [now apply clean_ident_q|].
    apply clean_plain; [|exact C]. rewrite Forall_forall in H2. intros c Hc. specialize (H2 c Hc). tauto.
  Qed.
  Lemma clean_path : forall m rest, reference_path q m -> ~ doubled q m -> parts_clean rest -> parts_clean (m ++ rest).
  Proof.
    intros m rest H D C. destruct H as [a Ha|a b Ha Hb|a b c Ha Hb Hc].
    - now apply clean_ident_q.
    - assert (Da : ~ doubled q a) by (intros X; apply D; now apply doubled_app_l).
      assert (Db : ~ doubled q b) by (intros X; apply D; now apply doubled_app_r, (doubled_app_r q [46])).
      rewrite <- !app_assoc. apply clean_ident_q; auto. apply clean_dot. now apply clean_ident.
    - assert (Da : ~ doubled q a) by (intros X; apply D; now apply doubled_app_l).
      assert (Db : ~ doubled q b)
        by (intros X; apply D; apply doubled_app_r, (doubled_app_r q [46]); now apply doubled_app_l).
      assert (Dc : ~ doubled q c)
        by (intros X; apply D; apply doubled_app_r, (doubled_app_r q [46]), doubled_app_r, (doubled_app_r q [46]); exact X).
      rewrite <- !app_assoc. apply clean_ident_q; auto. apply clean_dot. apply clean_ident; auto.
      apply clean_dot. now apply clean_ident.
  Qed.
End Clean.
Lemma reference_clean : forall b s, reference_shaped (quote_of b) s -> ~ doubled (quote_of b) s ->
  exists segs, reference b s = sjoin [46] (map (quote_part (quote_of b)) segs)
    /\ forall x, In x segs -> ~ In (quote_of b) x.
Proof.
  intros b s [m [[l [r [-> [Hl [Hr _]]]]] H]] D.
  assert (W : forall c, whitespace c -> c <> quote_of b /\ c <> 46).
  { intros c Hc. apply whitespace_ok in Hc. destruct b; split; intros ->; discriminate. }
  assert (Hq : quote_of b <> 46) by (destruct b; discriminate).
  assert (C : parts_clean (quote_of b) (l ++ m ++ r)).
  { apply clean_plain; [|apply (clean_path _ Hq); [exact H| |]].
    - rewrite Forall_forall in Hl. auto.
    - intros X. apply D. now apply doubled_app_r, doubled_app_l.
    - rewrite <- (app_nil_r r). apply clean_plain; [|apply clean_nil]. rewrite Forall_forall in Hr. auto. }
  unfold reference. rewrite ref_quote_of. eexists. split; [reflexivity|].
  intros x Hx. apply filter_In in Hx. destruct Hx as [Hx _]. now apply (C [] (fun z => z)).
Qed.
Lemma reference_not_sq : forall b s c r, reference b s = c :: r -> c <> 39.
Proof.
  intros b s c r. unfold reference.
  destruct (filter (fun i => negb (is_nilb i)) (split_ref (ref_quote b) s [] 0)) as [|x l]; [discriminate|].
  intros H -> .
  assert (F : forall z, quote_part (ref_quote b) x ++ z = 39 :: r -> False).
  { intros z. unfold quote_part. destruct (seqb x [c_star]) eqn:E.
    - apply seqb_eq in E. subst. discriminate.
    - destruct b; discriminate. }
  destruct l as [|y l].
  - cbn [map sjoin] in H. apply (F []). now rewrite app_nil_r.
  - change (sjoin [c_dot] (map (quote_part (ref_quote b)) (x :: y :: l))) with
      (quote_part (ref_quote b) x ++ [c_dot] ++ sjoin [c_dot] (map (quote_part (ref_quote b)) (y :: l))) in H.
    now apply (F _ H).
Qed.
