(** Lemmas: SET and VALUES with any data. *)
From Coq Require Import Lia ZArith.
From Verif Require Import Base BaseFacts NumFmt Value Backend Eq Render ParseArgs Build Queries History SpecArgs SpecLists SpecSet PfArgs PfHistories PfLists.
Open Scope list_scope.
Open Scope N_scope.

Lemma num_same : forall s n d s' n' d', num_eq (NFin s n d) (NFin s' n' d') = true <->
  ((if s then - Z.of_N n else Z.of_N n) * Zpos d' = (if s' then - Z.of_N n' else Z.of_N n') * Zpos d)%Z.
Proof.
  intros s n d s' n' d'. cbn [num_eq]. rewrite Bool.andb_true_iff, Bool.orb_true_iff, !N.eqb_eq, Bool.eqb_true_iff.
  assert (A : n * Npos d' = n' * Npos d <-> (Z.of_N n * Zpos d' = Z.of_N n' * Zpos d)%Z).
  { rewrite <- (N2Z.inj_iff (n * Npos d')), !N2Z.inj_mul. reflexivity. }
  rewrite A. clear A. assert (B : n = 0 <-> (Z.of_N n = 0)%Z) by lia. rewrite B. clear B. pose proof (N2Z.is_nonneg n) as P. pose proof (N2Z.is_nonneg n') as P'.
  revert P P'. generalize (Z.of_N n) as a, (Z.of_N n') as b. intros a b P P'. assert (G : (0 < Zpos d)%Z) by lia. assert (G' : (0 < Zpos d')%Z) by lia. revert G G'. generalize (Zpos d) as e, (Zpos d') as e'. intros e e' G G'.
  destruct s, s'; rewrite ?Z.mul_opp_l.
  - split; [intros [X _]; lia|intros X; split; [lia|now right]].
  - split; [intros [X [Y|Y]]; [|discriminate]; subst a; lia|]. intros X. assert (Q : (0 <= a * e')%Z) by (apply Z.mul_nonneg_nonneg; lia). assert (Q' : (0 <= b * e)%Z) by (apply Z.mul_nonneg_nonneg; lia).
    split; [lia|]. left. assert (Z0 : (a * e' = 0)%Z) by lia. apply Z.mul_eq_0 in Z0. lia.
  - split; [intros [X [Y|Y]]; [|discriminate]; subst a; lia|]. intros X. assert (Q : (0 <= a * e')%Z) by (apply Z.mul_nonneg_nonneg; lia). assert (Q' : (0 <= b * e)%Z) by (apply Z.mul_nonneg_nonneg; lia).
    split; [lia|]. left. assert (Z0 : (a * e' = 0)%Z) by lia. apply Z.mul_eq_0 in Z0. lia.
  - split; [intros [X _]; lia|intros X; split; [lia|now right]].
Qed.
Lemma amount_num : forall v z d, amount v z d <-> exists s n, as_num v = Some (NFin s n d) /\ z = (if s then - Z.of_N n else Z.of_N n)%Z.
Proof.
  intros v z d. split.
  - intros []; cbn [as_num].
    + destruct b; do 2 eexists; split; reflexivity.
    + exists (z0 <? 0)%Z, (Z.abs_N z0). split; [reflexivity|]. destruct (z0 <? 0)%Z eqn:Q; lia.
    + do 2 eexists; split; reflexivity.
    + do 2 eexists; split; reflexivity.
  - intros (s & n & Q & ->). destruct v; try discriminate; cbn [as_num] in Q; injection Q.
    + intros <- <- <-. destruct b; constructor.
    + intros <- <- <-. replace (if (z <? 0)%Z then _ else _) with z; [constructor|]. destruct (z <? 0)%Z eqn:Q1; lia.
    + intros ->. constructor.
    + intros ->. constructor.
Qed.
Lemma infinite_num : forall v s, infinite v s <-> as_num v = Some (NInf s).
Proof.
  intros v s. split; [intros []; reflexivity|]. intros Q. destruct v; try discriminate; cbn [as_num] in Q; injection Q; try discriminate; intros ->; constructor.
Qed.
Lemma num_value : forall v w x y, as_num v = Some x -> as_num w = Some y -> (num_eq x y = true <-> same_value v w).
Proof.
  intros v w x y V W. split.
  - intros Q. destruct x as [s n d|s|], y as [s' n' d'|s'|]; try discriminate.
    + left. do 4 eexists. split; [apply amount_num; do 2 eexists; split; [exact V|reflexivity]|]. split; [apply amount_num; do 2 eexists; split; [exact W|reflexivity]|]. now apply num_same.
    + right. left. cbn in Q. apply Bool.eqb_prop in Q. subst s'. exists s. split; apply infinite_num; assumption.
  - intros [(z & d & z' & d' & A & B & Q)|[(s & A & B)|(<- & A)]].
    + apply amount_num in A, B. destruct A as (s & n & A & ->). destruct B as (s' & n' & B & ->). rewrite V in A. rewrite W in B. injection A as ->. injection B as ->. now apply num_same.
    + apply infinite_num in A, B. rewrite V in A. rewrite W in B. injection A as ->. injection B as ->. destruct s; reflexivity.
    + exfalso. destruct A as [->|[[s ->]|[[b ->]|[[d ->]|[d [t ->]]]]]]; discriminate.
Qed.
Lemma num_sym : forall v w, same_value v w -> same_value w v.
Proof.
  intros v w [(z & d & z' & d' & A & B & Q)|[(s & A & B)|(<- & A)]]; [left|right; left; eauto|right; right; auto]. do 4 eexists. split; [exact B|]. split; [exact A|]. now symmetry.
Qed.
Lemma amount_fun : forall v z d z' d', amount v z d -> amount v z' d' -> z = z' /\ d = d'.
Proof. intros v z d z' d' A B. apply amount_num in A, B. destruct A as (s & n & A & ->). destruct B as (s' & n' & B & ->). rewrite A in B. injection B as <- <- <-. auto. Qed.
Lemma same_trans : forall u v w, same_value u v -> same_value v w -> same_value u w.
Proof.
  assert (N1 : forall v z d s, amount v z d -> infinite v s -> False) by (intros v z d s [] I; inversion I).
  intros u v w [(z & d & z1 & d1 & A & B & Q)|[(s & A & B)|(<- & A)]]; [| |auto].
  - intros [(z2 & d2 & z3 & d3 & C & D & Q')|[(s & C & D)|(<- & C)]].
    + destruct (amount_fun _ _ _ _ _ B C) as [<- <-]. left. exists z, d, z3, d3. split; [exact A|]. split; [exact D|].
      assert (X : (z * Zpos d3 * Zpos d1 = z3 * Zpos d * Zpos d1)%Z). { transitivity (z * Zpos d1 * Zpos d3)%Z; [ring|]. rewrite Q. transitivity (z1 * Zpos d3 * Zpos d)%Z; [ring|]. rewrite Q'. ring. }
      apply Z.mul_reg_r in X; [exact X|discriminate].
    + exfalso. eauto.
    + left. exists z, d, z1, d1. auto.
  - intros [(z2 & d2 & z3 & d3 & C & D & Q')|[(s' & C & D)|(<- & C)]]; [exfalso; eauto| |right; left; eauto].
    right. left. exists s. split; [exact A|]. apply infinite_num in B, C, D. apply infinite_num. congruence.
Qed.

Lemma any_same : forall r v w, any_value v -> any_value w -> exists b, pyeq r v w = Ok b /\ (b = true <-> same_value v w).
Proof.
  intros r v w V W. destruct (as_num v) as [x|] eqn:X.
  - assert (Q : pyeq r v w = match as_num w with Some y => Ok (num_eq x y) | None => Ok false end). { destruct v; try discriminate; cbn [pyeq textual_eq]; rewrite X; reflexivity. }
    rewrite Q. destruct (as_num w) as [y|] eqn:Y.
    + eexists. split; [reflexivity|]. now apply num_value.
    + exists false. split; [reflexivity|]. split; [discriminate|]. intros [(z & d & z' & d' & A & B & _)|[(s & A & B)|(<- & _)]]; [| |congruence].
      * apply amount_num in B. destruct B as (s & n & B & _). congruence.
      * apply infinite_num in B. congruence.
  - assert (N : same_value v w <-> v = w).
    { split.
      - intros [(z & d & z' & d' & A & B & _)|[(s & A & B)|(E & _)]]; [| |exact E].
        + apply amount_num in A. destruct A as (s & n & A & _). congruence.
        + apply infinite_num in A. congruence.
      - intros <-. right. right. split; [reflexivity|]. destruct V as [->|[[s ->]|[[n ->]|[[b ->]|[[d ->]|[[d [t ->]]|[[b ->]|[[x ->]|[x ->]]]]]]]]]; try discriminate; eauto 8. }
    assert (S : set_value v). { destruct V as [->|[[s ->]|[[n ->]|[[b ->]|[[d ->]|[[d [t ->]]|[[b ->]|[[x ->]|[x ->]]]]]]]]]; try discriminate; unfold set_value; eauto 8. }
    destruct (as_num w) as [y|] eqn:Y.
    + exists false. split; [|split; [discriminate|intros Z; apply N in Z; congruence]].
      destruct V as [->|[[s ->]|[[n ->]|[[b ->]|[[d ->]|[[d [t ->]]|[[b ->]|[[x ->]|[x ->]]]]]]]]]; try discriminate; destruct w; try discriminate; reflexivity.
    + assert (S' : set_value w). { destruct W as [->|[[s ->]|[[n ->]|[[b ->]|[[d ->]|[[d [t ->]]|[[b ->]|[[x ->]|[x ->]]]]]]]]]; try discriminate; unfold set_value; eauto 8. }
      destruct (flat_eq r v w S S') as [[-> Q]|[D Q]]; eexists; (split; [exact Q|]); rewrite N; split; congruence.
Qed.
Lemma item_decides : forall r (good : val -> Prop) same, (forall v w, good v -> good w -> exists b, pyeq r v w = Ok b /\ (b = true <-> same v w)) ->
  forall p q, (exists c, fst p = VStr c) -> good (snd p) -> (exists c, fst q = VStr c) -> good (snd q) ->
  exists b, pyeq r (the_value p) (the_value q) = Ok b /\ (b = true <-> same_item same p q).
Proof.
  intros r good same D [c v] [c' v'] [s Hc] H2 [s' Hc'] H4. cbn [fst snd] in *. subst c c'. unfold the_value, same_item. cbn [fst snd].
  change (pyeq r (VValue (VStr s) v) (VValue (VStr s') v')) with (rand (pyeq r (VStr s) (VStr s')) (pyeq r v v')).
  assert (A : forall x, set_value (VStr x)) by (intros; right; left; eauto).
  destruct (flat_eq r (VStr s) (VStr s') (A s) (A s')) as [[E Q]|[N Q]]; rewrite Q.
  - destruct (D v v' H2 H4) as (b & Q' & B). exists b. split; [cbn; rewrite Q'; destruct b; reflexivity|]. rewrite B. tauto.
  - exists false. split; [reflexivity|]. split; [discriminate|]. intros [E _]. contradiction.
Qed.
Lemma item_same : forall r p q, any_item p -> any_item q -> exists b, pyeq r (the_value p) (the_value q) = Ok b /\ (b = true <-> same_item same_value p q).
Proof. intros r p q [A B] [C D]. apply (item_decides r any_value same_value (any_same r)); assumption. Qed.
Lemma any_value_ok : forall p, any_item p -> mk_value (fst p) (snd p) = Ok (the_value p).
Proof.
  intros [c v] [[s Hc] Hv]. cbn [fst snd] in *. subst c. unfold mk_value.
  destruct Hv as [->|[[s' ->]|[[n ->]|[[b ->]|[[d ->]|[[d [t ->]]|[[b ->]|[[x ->]|[x ->]]]]]]]]]; reflexivity.
Qed.
Lemma any_value_bad : forall p, no_objects p -> ~ any_item p -> exists e, mk_value (fst p) (snd p) = Err e.
Proof.
  intros [c v] [S1 S2] N. cbn [fst snd] in *. unfold mk_value.
  destruct (check_type [TStr] c) eqn:C; [|eexists; reflexivity]. apply check_str in C. destruct C as [C|C]; [|congruence].
  destruct (check_type value_types v) eqn:V; [|eexists; reflexivity]. exfalso. apply N. split; [exact C|]. cbn [snd].
  unfold check_type in V. rewrite S2 in V. cbn [negb] in V. rewrite andb_true_r in V.
  unfold any_value. destruct v; try discriminate; eauto 12; try (destruct k; discriminate).
Qed.
(** What follows is about any notion of sameness that == decides for the items in question. *)
Section Sameness.
Context (same : val -> val -> Prop) (item : val * val -> Prop) (env_ok : env -> Prop).
Hypothesis Sym : forall v w, same v w -> same w v.
Hypothesis Trans : forall u v w, same u v -> same v w -> same u w.
Hypothesis Named : forall p, item p -> exists s, fst p = VStr s.
Hypothesis Made : forall p, item p -> mk_value (fst p) (snd p) = Ok (the_value p).
Hypothesis Decides : forall E p q, env_ok E -> item p -> item q ->
  exists b, pyeq (text E) (the_value p) (the_value q) = Ok b /\ (b = true <-> same_item same p q).
Definition alike_in (l : list (val * val)) (p : val * val) : Prop := exists y, In y l /\ same_item same y p.
Lemma item_trans : forall p q r, same_item same p q -> same_item same q r -> same_item same p r.
Proof. intros p q r [A B] [C D]. split; [congruence|eapply Trans; eauto]. Qed.
Lemma item_sym : forall p q, same_item same p q -> same_item same q p.
Proof. intros p q [A B]. split; [auto|now apply Sym]. Qed.
Lemma wr_in : forall l out, without_repeats same l out -> forall y, In y out -> In y l.
Proof. intros l out W. induction W; intros y I; [exact I| |apply in_or_app; left; auto]. apply in_app_or in I. apply in_or_app. destruct I as [I|I]; auto. Qed.
Lemma wr_alike : forall l out, without_repeats same l out -> forall p, alike_in l p <-> alike_in out p.
Proof.
  intros l out W p. split.
  - induction W as [|l out q W IH N|l out q W IH A]; intros (y & I & S); [destruct I| |]; apply in_app_or in I; destruct I as [I|[<-|[]]].
    + destruct IH as (u & U & SU); [exists y; auto|]. exists u. split; [apply in_or_app; auto|exact SU].
    + exists q. split; [apply in_or_app; right; now left|exact S].
    + apply IH. exists y. auto.
    + apply IH. destruct A as (u & U & SU). exists u. split; [exact U|eapply item_trans; eauto].
  - intros (y & I & S). exists y. split; [eapply wr_in; eauto|exact S].
Qed.
Lemma any_alike : forall E out p, env_ok E -> Forall item out -> item p ->
  exists b, anyM (fun x => pyeq (text E) x (the_value p)) (map the_value out) = Ok b /\ (b = true <-> alike_in out p).
Proof.
  intros E out p OK F P. induction out as [|y out IH]; [exists false; split; [reflexivity|]; split; [discriminate|intros (u & [] & _)]|]. inversion F as [|? ? Y F']; subst.
  cbn [map anyM]. destruct (Decides E y p OK Y P) as (b & Q & B). rewrite Q. destruct b.
  - exists true. split; [reflexivity|]. split; [|auto]. intros _. exists y. split; [now left|now apply B].
  - destruct (IH F') as (b & Q' & B'). exists b. split; [exact Q'|]. rewrite B'. split; intros (u & I & S); [exists u; split; [now right|exact S]|].
    destruct I as [<-|I]; [apply B in S; discriminate|exists u; auto].
Qed.
Lemma any_items : forall ok E ps r, env_ok E -> accepted ok ps r -> Forall item r -> (forall p, In p ps -> ~ ok p -> exists e, mk_value (fst p) (snd p) = Err e) ->
  forall l out, Forall item out -> without_repeats same l out ->
  exists out', fst (foldE (add_item mk_value (py_eq E)) (map the_value out) (batches ps)) = map the_value out' /\ Forall item out' /\ without_repeats same (l ++ r) out'.
Proof.
  intros ok E ps r OK Acc. induction Acc as [|p ps N|p ps r Op Acc IH]; intros FI Bad l out Do F.
  - exists out. rewrite app_nil_r. auto.
  - exists out. rewrite app_nil_r. split; [|auto]. destruct (Bad p) as [e B]; [now left|exact N|].
    cbn [batches map foldE]. unfold add_item at 1. cbn [nth2]. rewrite B. reflexivity.
  - inversion FI as [|? ? Pp FI']; subst. specialize (IH FI'). cbn [batches map foldE]. unfold add_item at 1. cbn [nth2]. rewrite (Made _ Pp). cbn [bind].
    unfold append_unique. destruct (any_alike E out p OK Do Pp) as (b & R & B). unfold py_eq at 1. rewrite R; cbn [bind commit]. destruct b.
    + destruct (IH (fun x Hx => Bad x (or_intror Hx)) (l ++ [p]) out) as [o' [Q [Do' F']]]; auto.
      { apply wr_again; [exact F|]. apply (wr_alike _ _ F). now apply B. }
      exists o'. rewrite <- app_assoc in F'. auto.
    + destruct (IH (fun x Hx => Bad x (or_intror Hx)) (l ++ [p]) (out ++ [p])) as [o' [Q [Do' F']]]; auto.
      { apply Forall_app. auto. }
      { apply wr_new; [exact F|]. intros y I S. assert (A : alike_in out p) by (apply (wr_alike _ _ F); exists y; auto). apply B in A. discriminate. }
      exists o'. rewrite <- app_assoc in F'. rewrite map_app in Q. auto.
Qed.
Lemma any_call_gen : forall (ok : val * val -> Prop) E l out a k r, env_ok E -> keys_ok a k -> (forall x, a = [x] -> is_sql x = false) ->
  ((forall ps, ~ pair_args a k ps) /\ r = [] \/
   exists ps, pair_args a k ps /\ (forall p, In p ps -> ~ ok p -> exists e, mk_value (fst p) (snd p) = Err e) /\ accepted ok ps r) -> Forall item r ->
  Forall item out -> without_repeats same l out ->
  exists out', fst (values_set (pure_world E) (map the_value out) a k) = map the_value out' /\ Forall item out' /\ without_repeats same (l ++ r) out'.
Proof.
  intros ok E l out a k r OK K NS R FI Do F.
  assert (V : values_set (pure_world E) (map the_value out) a k =
    match parse_args (pure_world E) pair_opts a k with
    | Err e => (map the_value out, Err e)
    | Ok items => foldE (add_item mk_value (py_eq E)) (map the_value out) items end).
  { unfold values_set. destruct a as [|x [|y a]]; try reflexivity. destruct k; [|reflexivity]. now rewrite (NS x eq_refl). }
  rewrite V. clear V. destruct (pair_contract (pure_world E) a k K) as [[ps [A Q]]|[Q N]]; rewrite Q.
  - destruct R as [[N _]|(ps' & A' & Bad & Acc)]; [exfalso; eapply N; eauto|]. rewrite (pair_args_fun _ _ _ _ A' A) in *.
    exact (any_items ok E ps r OK Acc FI Bad l out Do F).
  - destruct R as [[_ ->]|(ps' & A' & Bad & Acc)]; [|exfalso; eapply N; eauto]. exists out. rewrite app_nil_r. auto.
Qed.
(** Which value counts. *)
Lemma newest_value_new : forall l c' v' c v, (exists s, c' = VStr s) -> (forall y, In y l -> ~ same_item same y (c', v')) ->
  newest_value same (l ++ [(c', v')]) c v <-> (c' = c /\ v' = v) \/ (c' <> c /\ newest_value same l c v).
Proof.
  intros l c' v' c v K N. split.
  - intros [pre [post [Q [P W]]]]. destruct post as [|y post] using rev_ind.
    + left. apply app_inj_tail in Q. destruct Q as [_ Q]. injection Q as -> ->. auto.
    + clear IHpost. right. change (pre ++ (c, v) :: post ++ [y]) with (pre ++ ((c, v) :: post) ++ [y]) in Q. rewrite app_assoc in Q.
      apply app_inj_tail in Q. destruct Q as [-> <-]. split.
      * intros ->. destruct (W v') as (u & I & S); [apply in_or_app; right; now left|]. apply (N (c, u)); [|split; [reflexivity|exact S]]. rewrite in_app_iff in *. cbn [In] in *. tauto.
      * exists pre, post. split; [reflexivity|]. split; [exact P|]. intros w Hw. apply W, in_or_app. now left.
  - intros [[-> ->]|[D [pre [post [-> [P W]]]]]].
    + exists l, []. split; [reflexivity|]. split; [intros w I S; apply (N _ I); split; [reflexivity|exact S]|]. intros w [].
    + exists pre, (post ++ [(c', v')]). split; [now rewrite <- app_assoc|]. split; [exact P|]. intros w Hw. apply in_app_or in Hw as [Hw|[Hw|[]]]; [now apply W|congruence].
Qed.
Lemma newest_value_again : forall l x c v, alike_in l x -> newest_value same (l ++ [x]) c v <-> newest_value same l c v.
Proof.
  intros l x c v (y & I & S). split.
  - intros [pre [post [Q [P W]]]]. destruct post as [|z post] using rev_ind.
    + apply app_inj_tail in Q. destruct Q as [-> ->]. exfalso. destruct y as [c0 w], S as [E S]. cbn in E, S. subst c0. exact (P w I S).
    + clear IHpost. change (pre ++ (c, v) :: post ++ [z]) with (pre ++ ((c, v) :: post) ++ [z]) in Q. rewrite app_assoc in Q.
      apply app_inj_tail in Q. destruct Q as [-> <-]. exists pre, post. split; [reflexivity|]. split; [exact P|]. intros w Hw. apply W, in_or_app. now left.
  - intros [pre [post [-> [P W]]]]. exists pre, (post ++ [x]). split; [now rewrite <- app_assoc|]. split; [exact P|].
    intros w Hw. apply in_app_or in Hw as [Hw|[->|[]]]; [now apply W|]. destruct y as [c0 u], S as [E S]. cbn in E, S. subst c0. apply in_app_or in I as [I|[I|I]].
    + exists u. split; [apply in_or_app; now left|exact S].
    + injection I as <-. exists v. split; [apply in_or_app; right; now left|exact S].
    + destruct (W u I) as (u' & I' & S'). exists u'. split; [exact I'|eapply Trans; eauto].
Qed.
Lemma newest_value_wins : forall l out, without_repeats same l out -> text_keys l -> forall c v, assigned out c v <-> newest_value same l c v.
Proof.
  intros l out F. induction F as [|l out [c' v'] F IH N|l out [c' v'] F IH I]; intros K c v.
  - split; [intros [pre [post [Q _]]]|intros [pre [post [Q _]]]]; destruct pre; discriminate.
  - unfold text_keys in K. apply Forall_app in K as [K1 K2]. inversion K2; subst. rewrite assigned_snoc, newest_value_new by assumption. now rewrite (IH K1).
  - unfold text_keys in K. apply Forall_app in K as [K1 K2]. rewrite newest_value_again by exact I. now apply IH.
Qed.
Lemma never_returns_prefix : forall l x c, never_returns same (l ++ [x]) c -> never_returns same l c.
Proof.
  intros l x c N u v pre mid post E S w I. apply (N u v pre mid (post ++ [x])); [|exact S|exact I]. rewrite E. rewrite <- !app_assoc. simpl. now rewrite <- app_assoc.
Qed.
Lemma assigned_one : forall mid pre c u, text_keys mid -> exists w, assigned (pre ++ (c, u) :: mid) c w /\ (w = u \/ In (c, w) mid).
Proof.
  intros mid pre c u. induction mid as [|[c' x] mid IH] using rev_ind; intros K.
  - exists u. split; [exists pre, []; split; [reflexivity|intros []]|now left].
  - apply Forall_app in K. destruct K as [K1 K2]. inversion K2; subst. change (pre ++ (c, u) :: mid ++ [(c', x)]) with (pre ++ ((c, u) :: mid) ++ [(c', x)]). rewrite app_assoc.
    destruct (key_dec c' c) as [->|D]; [assumption| |].
    + exists x. split; [apply assigned_snoc; now left|right; apply in_or_app; right; now left].
    + destruct (IH K1) as (w & A & I). exists w. split; [apply assigned_snoc; right; auto|]. destruct I as [->|I]; [now left|right; apply in_or_app; now left].
Qed.
Lemma never_returns_wins : forall l out, without_repeats same l out -> text_keys l ->
  forall c v, never_returns same l c -> assigned l c v -> exists w, assigned out c w /\ (w = v \/ same w v).
Proof.
  intros l out F. induction F as [|l out [c' v'] F IH N|l out [c' v'] F IH I]; intros K c v NB A.
  - destruct A as [pre [post [E _]]]. destruct pre; discriminate.
  - apply Forall_app in K; destruct K as [K1 K2]. rewrite assigned_snoc in A. destruct A as [[-> ->]|[D A]].
    + exists v. split; [apply assigned_snoc; now left|now left].
    + destruct (IH K1 c v (never_returns_prefix _ _ _ NB) A) as (w & B & S). exists w. split; [apply assigned_snoc; now right|exact S].
  - apply Forall_app in K; destruct K as [K1 K2]. rewrite assigned_snoc in A. destruct A as [[-> ->]|[D A]]; [|exact (IH K1 c v (never_returns_prefix _ _ _ NB) A)].
    destruct I as ([c0 u] & I & E & S). cbn in E, S. subst c0. apply in_split in I. destruct I as [pre [mid ->]].
    assert (KM : text_keys mid) by (apply Forall_app in K1; destruct K1 as [_ K1]; now inversion K1).
    assert (MID : forall w, In (c, w) mid -> same u w) by (apply (NB u v pre mid []); [now rewrite <- app_assoc|exact S]).
    destruct (assigned_one mid pre c u KM) as (w & B & X). destruct (IH K1 c w (never_returns_prefix _ _ _ NB) B) as (w' & C & Y). exists w'. split; [exact C|]. right.
    assert (SW : same w v). { destruct X as [->|X]; [exact S|]. eapply Trans; [apply Sym, MID, X|exact S]. }
    destruct Y as [->|Y]; [exact SW|eapply Trans; eauto].
Qed.
Lemma wr_keys : forall l out, without_repeats same l out -> Forall item out -> text_keys l.
Proof.
  intros l out F. induction F as [|l out p F IH N|l out p F IH (y & I & S)]; intros A; [constructor| |].
  - apply Forall_app in A. destruct A as [A1 A2]. apply Forall_app. split; [exact (IH A1)|]. inversion A2 as [|? ? X _]; subst. constructor; [exact (Named _ X)|constructor].
  - specialize (IH A). apply Forall_app. split; [exact IH|]. constructor; [|constructor]. unfold text_keys in IH. rewrite Forall_forall in IH. destruct S as [<- _]. exact (IH _ I).
Qed.
End Sameness.
Lemma accepted_items : forall P ps r, accepted P ps r -> Forall P r.
Proof. intros P ps r A. induction A; constructor; assumption. Qed.
Lemma set_call_items : forall a k r, set_any_call a k r -> Forall any_item r.
Proof. intros a k r [N|ps r' A SD Acc]; [constructor|eapply accepted_items; eauto]. Qed.
Lemma any_call_ok : forall E l out a k r, keys_ok a k -> (forall x, a = [x] -> is_sql x = false) -> set_any_call a k r ->
  Forall any_item out -> without_repeats same_value l out ->
  exists out', fst (values_set (pure_world E) (map the_value out) a k) = map the_value out' /\ Forall any_item out' /\ without_repeats same_value (l ++ r) out'.
Proof.
  intros E l out a k r K NS R. apply (any_call_gen same_value any_item (fun _ => True) same_trans any_value_ok (fun E' p q _ => item_same (text E') p q) any_item E l out a k r Logic.I K NS); [|exact (set_call_items a k r R)].
  destruct R as [N|ps r A' SD Acc]; [left; auto|right]. exists ps. split; [exact A'|]. split; [|exact Acc]. intros p Hp. apply any_value_bad. rewrite Forall_forall in SD. auto.
Qed.
Lemma any_history : forall E H asked, set_any_asked (map snd H) asked ->
  exists out, u_vals (calls upd_step empty_update (program E H)) = map (fun p => VValue (fst p) (snd p)) out /\
    Forall any_item out /\ without_repeats same_value (List.concat asked) out.
Proof.
  intros E H. induction H as [|[b op] H IH] using rev_ind; intros asked A.
  - inversion A; subst. exists []. repeat constructor.
  - rewrite map_app in A. apply Forall2_snoc in A. destruct A as [as' [r [-> [A R]]]].
    rewrite concat_snoc. destruct (IH as' A) as [out [I1 [I2 I3]]]. rewrite program_snoc, calls_snoc.
    destruct (calls upd_step empty_update (program E H)) as [ig tabs vals wh al]. cbn [u_vals] in I1. subst vals. cbn [snd] in R.
    destruct op; try (subst r; rewrite app_nil_r; exists out; split; [reflexivity|split; assumption]).
    destruct R as [K [NS R]]. cbn [upd_step lift1 fst u_vals]. exact (any_call_ok (with_be E b) _ out args kwds r K NS R I2 I3).
Qed.
Lemma set_any : forall E H asked, set_any_asked (map snd H) asked ->
  exists out, u_vals (calls upd_step empty_update (program E H)) = map (fun p => VValue (fst p) (snd p)) out /\
    without_repeats same_value (List.concat asked) out /\
    (forall c v, assigned out c v <-> newest_value same_value (List.concat asked) c v) /\
    forall c v, never_returns same_value (List.concat asked) c -> assigned (List.concat asked) c v -> exists w, assigned out c w /\ (w = v \/ same_value w v).
Proof.
  intros E H asked A. destruct (any_history E H asked A) as [out [H1 [H2 H3]]]. exists out. split; [exact H1|]. split; [exact H3|].
  pose proof (wr_keys same_value any_item (fun p P => proj1 P) _ _ H3 H2) as K. split; [now apply (newest_value_wins same_value same_trans)|now apply (never_returns_wins same_value num_sym same_trans)].
Qed.
Lemma row_any : forall E q a k r q', keys_ok a k -> (forall x, a = [x] -> is_sql x = false) -> set_any_call a k r ->
  ins_step (pure_world E) q (IValues a k) = (q', Ok tt) ->
  exists out, i_rows q' = i_rows q ++ [map (fun p => VValue (fst p) (snd p)) out] /\ without_repeats same_value r out /\
    (forall c v, assigned out c v <-> newest_value same_value r c v) /\
    forall c v, never_returns same_value r c -> assigned r c v -> exists w, assigned out c w /\ (w = v \/ same_value w v).
Proof.
  intros E [rp ig tabs rows dup cf upd] a k r q' K NS R H. cbn [ins_step] in H. unfold lift1 in H. injection H as <- H. cbn [i_rows].
  destruct (any_call_ok E [] [] a k r K NS R (Forall_nil _) (wr_nil _)) as [out [O [Do F]]]. cbn [map app] in O, F.
  unfold rows_add in *. destruct (values_set (pure_world E) [] a k) as [ps [u|e]]; [|discriminate]. cbn [fst] in *. subst ps.
  exists out. split; [reflexivity|]. split; [exact F|]. pose proof (wr_keys same_value any_item (fun p P => proj1 P) _ _ F Do) as K1. split; [now apply (newest_value_wins same_value same_trans)|now apply (never_returns_wins same_value num_sym same_trans)].
Qed.
(** SQL objects as values. *)
Lemma object_value_ok : forall p, object_item p -> mk_value (fst p) (snd p) = Ok (the_value p).
Proof.
  intros [c v] [[s Hc] [Hv|Hv]]; cbn [fst snd] in *; [apply (any_value_ok (c, v)); split; [exists s; exact Hc|exact Hv]|]. subst c. unfold mk_value, check_type. cbn [fst snd].
  rewrite Hv. destruct v; try discriminate; reflexivity.
Qed.
Lemma object_value_bad : forall p, is_sql (fst p) = false -> ~ object_item p -> exists e, mk_value (fst p) (snd p) = Err e.
Proof.
  intros [c v] S N. cbn [fst snd] in *. destruct (is_sql v) eqn:V.
  - unfold mk_value. destruct (check_type [TStr] c) eqn:C; [|eexists; reflexivity]. apply check_str in C. destruct C as [C|C]; [|congruence].
    exfalso. apply N. split; [exact C|right; exact V].
  - apply (any_value_bad (c, v)); [split; assumption|]. intros [A B]. apply N. split; [exact A|left; exact B].
Qed.
Definition among (vals : val -> Prop) (E : env) (v w : val) : Prop := vals v /\ vals w /\ equal E v w.
Definition item_among (vals : val -> Prop) (p : val * val) : Prop := object_item p /\ vals (snd p).
Lemma among_sym : forall E vals, comparable E vals -> forall v w, among vals E v w -> among vals E w v.
Proof. intros E vals (_ & S & _) v w (A & B & Q). split; [exact B|]. split; [exact A|]. now apply S. Qed.
Lemma among_trans : forall E vals, comparable E vals -> forall u v w, among vals E u v -> among vals E v w -> among vals E u w.
Proof. intros E vals (_ & _ & T) u v w (A & B & Q) (_ & C & Q'). split; [exact A|]. split; [exact C|]. now apply (T u v w). Qed.
Lemma among_decides : forall E vals, comparable E vals -> forall p q, item_among vals p -> item_among vals q ->
  exists b, pyeq (text E) (the_value p) (the_value q) = Ok b /\ (b = true <-> same_item (among vals E) p q).
Proof.
  intros E vals (D & _) p q [[P1 P2] P3] [[Q1 Q2] Q3]. apply (item_decides (text E) vals (among vals E)); try assumption.
  intros v w V W. destruct (D v w V W) as [b Q]. exists b. split; [exact Q|]. unfold among, equal. rewrite Q. split; [intros ->; auto|intros (_ & _ & X); congruence].
Qed.
Lemma object_call_ok : forall E vals l out a k r, comparable E vals -> keys_ok a k -> (forall x, a = [x] -> is_sql x = false) -> set_object_call a k r ->
  Forall (fun p => vals (snd p)) r -> Forall (item_among vals) out -> without_repeats (among vals E) l out ->
  exists out', fst (values_set (pure_world E) (map the_value out) a k) = map the_value out' /\ Forall (item_among vals) out' /\ without_repeats (among vals E) (l ++ r) out'.
Proof.
  intros E vals l out a k r C K NS R FV.
  apply (any_call_gen (among vals E) (item_among vals) (fun E' => E' = E) (among_trans E vals C) (fun p P => object_value_ok p (proj1 P))
           (fun E' p q Q => eq_ind_r (fun E' => item_among vals p -> item_among vals q -> exists b, pyeq (text E') (the_value p) (the_value q) = Ok b /\ (b = true <-> same_item (among vals E) p q)) (among_decides E vals C p q) Q)
           object_item E l out a k r eq_refl K NS).
  - destruct R as [N|ps r A' SD Acc]; [left; auto|right]. exists ps. split; [exact A'|]. split; [|exact Acc]. intros p Hp. apply object_value_bad. rewrite Forall_forall in SD. auto.
  - assert (FO : Forall object_item r) by (destruct R as [N|ps r A' SD Acc]; [constructor|eapply accepted_items; eauto]).
    rewrite Forall_forall in *. intros p I. split; auto.
Qed.
Lemma object_history : forall E vals ops asked, comparable E vals -> set_object_asked ops asked -> Forall (fun p => vals (snd p)) (List.concat asked) ->
  exists out, u_vals (calls upd_step empty_update (map (fun op => (pure_world E, op)) ops)) = map (fun p => VValue (fst p) (snd p)) out /\
    Forall (item_among vals) out /\ without_repeats (among vals E) (List.concat asked) out.
Proof.
  intros E vals ops. induction ops as [|op ops IH] using rev_ind; intros asked C A FV.
  - inversion A; subst. exists []. repeat constructor.
  - apply Forall2_snoc in A. destruct A as [as' [r [-> [A R]]]].
    rewrite concat_snoc in *. apply Forall_app in FV. destruct FV as [FV FR]. destruct (IH as' C A FV) as [out [I1 [I2 I3]]]. rewrite map_app. cbn [map]. rewrite calls_snoc.
    destruct (calls upd_step empty_update (map (fun op => (pure_world E, op)) ops)) as [ig tabs vs wh al]. cbn [u_vals] in I1. subst vs.
    destruct op; try (subst r; rewrite app_nil_r; exists out; split; [reflexivity|split; assumption]).
    destruct R as [K [NS R]]. cbn [upd_step lift1 fst u_vals]. exact (object_call_ok E vals _ out args kwds r C K NS R FR I2 I3).
Qed.
(** Among the values asked for, [among] is [equal]. *)
Lemma wr_ext : forall (P : val * val -> Prop) s1 s2, (forall p q, P p -> P q -> (same_item s1 p q <-> same_item s2 p q)) ->
  forall l out, without_repeats s1 l out -> Forall P l -> without_repeats s2 l out.
Proof.
  intros P s1 s2 X l out W. induction W as [|l out p W IH N|l out p W IH (y & I & S)]; intros F; [constructor| |]; apply Forall_app in F; destruct F as [F1 F2]; inversion F2; subst; rewrite Forall_forall in F1.
  - apply wr_new; [apply IH, Forall_forall, F1|]. intros y I S. apply (N y I). apply X; auto.
  - apply wr_again; [apply IH, Forall_forall, F1|]. exists y. split; [exact I|]. apply X; auto.
Qed.
Lemma newest_ext : forall (vals : val -> Prop) s1 s2, (forall v w : val, vals v -> vals w -> (s1 v w <-> s2 v w)) ->
  forall l c v, Forall (fun p => vals (snd p)) l -> newest_value s1 l c v -> newest_value s2 l c v.
Proof.
  intros vals s1 s2 X l c v F (pre & post & -> & P & W). rewrite Forall_forall in F.
  assert (V : forall w, In (c, w) (pre ++ (c, v) :: post) -> vals w) by (intros w I; exact (F _ I)).
  assert (Vv : vals v) by (apply V, in_or_app; right; now left).
  exists pre, post. split; [reflexivity|]. split.
  - intros w I S. apply (P w I). apply X; auto. apply V, in_or_app. now left.
  - intros w I. destruct (W w I) as (u & J & S). exists u. split; [exact J|]. apply X; auto.
    + apply V. rewrite in_app_iff in *. cbn [In] in *. tauto.
    + apply V, in_or_app. right. now right.
Qed.
Lemma returns_ext : forall (vals : val -> Prop) s1 s2, (forall v w : val, vals v -> vals w -> (s1 v w <-> s2 v w)) ->
  forall l c, Forall (fun p => vals (snd p)) l -> never_returns s1 l c -> never_returns s2 l c.
Proof.
  intros vals s1 s2 X l c F N u v pre mid post -> S w I. rewrite Forall_forall in F.
  assert (V : forall w, In (c, w) (pre ++ (c, u) :: mid ++ (c, v) :: post) -> vals w) by (intros x J; exact (F _ J)).
  assert (Vu : vals u) by (apply V, in_or_app; right; now left).
  assert (Vv : vals v) by (apply V, in_or_app; right; right; apply in_or_app; right; now left).
  assert (Vw : vals w) by (apply V, in_or_app; right; right; apply in_or_app; now left).
  apply X; auto. apply (N u v pre mid post eq_refl); [|exact I]. apply X; auto.
Qed.
Lemma among_equal : forall E (vals : val -> Prop) v w, vals v -> vals w -> (among vals E v w <-> equal E v w).
Proof. intros E vals v w V W. unfold among. tauto. Qed.
Lemma objects_end : forall E vals l out, comparable E vals -> Forall (fun p => vals (snd p)) l -> Forall (item_among vals) out -> without_repeats (among vals E) l out ->
  without_repeats (equal E) l out /\ (forall c v, assigned out c v <-> newest_value (equal E) l c v) /\
  forall c v, never_returns (equal E) l c -> assigned l c v -> exists w, assigned out c w /\ (w = v \/ equal E w v).
Proof.
  intros E vals l out C FV FO W.
  assert (K : text_keys l) by exact (wr_keys (among vals E) (item_among vals) (fun p P => proj1 (proj1 P)) _ _ W FO).
  split.
  - apply (wr_ext (fun p => vals (snd p)) (among vals E) (equal E)); [|exact W|exact FV]. intros p q P Q. unfold same_item. rewrite (among_equal E vals _ _ P Q). reflexivity.
  - split.
    + intros c v. rewrite (newest_value_wins (among vals E) (among_trans E vals C) l out W K c v).
      split; apply newest_ext with (vals := vals); try exact FV; intros x y Vx Vy; [|symmetry]; apply among_equal; assumption.
    + intros c v N A. destruct (never_returns_wins (among vals E) (among_sym E vals C) (among_trans E vals C) l out W K c v) as (w & B & S); [|exact A|].
      * apply returns_ext with (vals := vals) (s1 := equal E); [|exact FV|exact N]. intros x y Vx Vy. symmetry. now apply among_equal.
      * exists w. split; [exact B|]. destruct S as [S|(_ & _ & S)]; auto.
Qed.
Lemma set_objects : forall E vals ops asked, comparable E vals -> set_object_asked ops asked -> Forall (fun p => vals (snd p)) (List.concat asked) ->
  exists out, u_vals (calls upd_step empty_update (map (fun op => (pure_world E, op)) ops)) = map (fun p => VValue (fst p) (snd p)) out /\
    without_repeats (equal E) (List.concat asked) out /\
    (forall c v, assigned out c v <-> newest_value (equal E) (List.concat asked) c v) /\
    forall c v, never_returns (equal E) (List.concat asked) c -> assigned (List.concat asked) c v -> exists w, assigned out c w /\ (w = v \/ equal E w v).
Proof.
  intros E vals ops asked C A FV. destruct (object_history E vals ops asked C A FV) as [out [H1 [H2 H3]]]. exists out. split; [exact H1|]. exact (objects_end E vals _ out C FV H2 H3).
Qed.
Lemma row_objects : forall E vals q a k r q', comparable E vals -> keys_ok a k -> (forall x, a = [x] -> is_sql x = false) -> set_object_call a k r ->
  Forall (fun p => vals (snd p)) r -> ins_step (pure_world E) q (IValues a k) = (q', Ok tt) ->
  exists out, i_rows q' = i_rows q ++ [map (fun p => VValue (fst p) (snd p)) out] /\ without_repeats (equal E) r out /\
    (forall c v, assigned out c v <-> newest_value (equal E) r c v) /\
    forall c v, never_returns (equal E) r c -> assigned r c v -> exists w, assigned out c w /\ (w = v \/ equal E w v).
Proof.
  intros E vals [rp ig tabs rows dup cf upd] a k r q' C K NS R FV H. cbn [ins_step] in H. unfold lift1 in H. injection H as <- H. cbn [i_rows].
  destruct (object_call_ok E vals [] [] a k r C K NS R FV (Forall_nil _) (wr_nil _)) as [out [O [Do F]]]. cbn [map app] in O, F.
  unfold rows_add in *. destruct (values_set (pure_world E) [] a k) as [ps [u|e]]; [|discriminate]. cbn [fst] in *. subst ps.
  exists out. split; [reflexivity|]. exact (objects_end E vals r out C FV Do F).
Qed.
Lemma by_text_textual : forall v, by_text v <-> textual_eq v = true.
Proof. intros v. destruct v; cbn; split; intros H; first [exact Logic.I|reflexivity|discriminate H|destruct H]. Qed.
Lemma textual_left : forall r a b x, textual_eq a = true -> r a = Ok x ->
  pyeq r a b = match b with VStr s => Ok (seqb x s) | _ => if is_sql b then (do y <- r b; Ok (seqb x y)) else Ok false end.
Proof. intros r a b x T R. destruct a; try discriminate; cbn [pyeq textual_eq]; rewrite R; destruct b; reflexivity. Qed.
Lemma textual_right : forall r a b y, any_value a -> textual_eq b = true -> r b = Ok y ->
  pyeq r a b = match a with VStr s => Ok (seqb y s) | _ => Ok false end.
Proof.
  intros r a b y A T R. destruct A as [->|[[s ->]|[[n ->]|[[c ->]|[[d ->]|[[d [t ->]]|[[c ->]|[[x ->]|[x ->]]]]]]]]]; cbn [pyeq textual_eq]; destruct b; try discriminate; rewrite ?R; reflexivity.
Qed.
Lemma any_not_text : forall v, any_value v -> textual_eq v = false /\ is_sql v = false.
Proof. intros v A. destruct A as [->|[[s ->]|[[n ->]|[[c ->]|[[d ->]|[[d [t ->]]|[[c ->]|[[x ->]|[x ->]]]]]]]]]; split; reflexivity. Qed.
Lemma sendable_equal : forall E v w, sendable E v -> sendable E w ->
  exists b, py_eq E v w = Ok b /\ (b = true <-> same_value v w \/ exists t, reads E v t /\ reads E w t).
Proof.
  assert (ND : forall v w, by_text v -> ~ same_value v w /\ ~ same_value w v).
  { intros v w B. split; intros [(z & d & z' & d' & X & Y & _)|[(s & X & Y)|(<- & X)]]; try (destruct v; destruct B; inversion X; fail); try (destruct v; destruct B; inversion Y; fail);
      destruct X as [X|[[s X]|[[b X]|[[d X]|[d [t X]]]]]]; subst; destruct B. }
  assert (RS : forall E s t, reads E (VStr s) t <-> s = t). { intros E s t. split; [intros [Q|[[] _]]; congruence|intros ->; now left]. }
  assert (RA : forall E v t, any_value v -> reads E v t <-> v = VStr t). { intros E v t A. split; [intros [Q|[B _]]; [exact Q|]|intros ->; now left]. apply by_text_textual in B. destruct (any_not_text v A). congruence. }
  assert (RT : forall E v x t, by_text v -> text E v = Ok x -> reads E v t <-> t = x). { intros E v x t B X. split; [intros [->|[_ Q]]; [destruct B|congruence]|intros ->; right; auto]. }
  intros E v w [V|(x & V & X)] [W|(y & W & Y)]; unfold py_eq.
  - destruct (any_same (text E) v w V W) as (b & Q & B). exists b. split; [exact Q|]. rewrite B. split; [now left|]. intros [S|(t & R1 & R2)]; [exact S|].
    apply (RA E v t V) in R1. apply (RA E w t W) in R2. subst. right. right. split; [reflexivity|]. right. left. eauto.
  - rewrite (textual_right (text E) v w y V (proj1 (by_text_textual w) W) Y). destruct (ND w v W) as [_ N].
    assert (G : forall b, (b = true <-> exists t, v = VStr t /\ t = y) -> (b = true <-> same_value v w \/ exists t, reads E v t /\ reads E w t)).
    { intros b H. rewrite H. split.
      - intros (t & -> & ->). right. exists y. split; [now left|right; auto].
      - intros [S|(t & R1 & R2)]; [contradiction|]. exists t. split; [apply (RA E v t V), R1|apply (RT E w y t W Y), R2]. }
    destruct v; try (exists false; split; [reflexivity|]; apply G; split; [discriminate|intros (? & Q & _); discriminate]).
    eexists. split; [reflexivity|]. apply G. rewrite seqb_eq. split; [intros ->; eauto|intros (t & Q & ->); congruence].
  - rewrite (textual_left (text E) v w x (proj1 (by_text_textual v) V) X). destruct (ND v w V) as [N _]. destruct (any_not_text w W) as [_ I].
    assert (G : forall b, (b = true <-> exists t, w = VStr t /\ t = x) -> (b = true <-> same_value v w \/ exists t, reads E v t /\ reads E w t)).
    { intros b H. rewrite H. split.
      - intros (t & -> & ->). right. exists x. split; [right; auto|now left].
      - intros [S|(t & R1 & R2)]; [contradiction|]. exists t. split; [apply (RA E w t W), R2|apply (RT E v x t V X), R1]. }
    destruct w; try discriminate; try (exists false; split; [reflexivity|]; apply G; split; [discriminate|intros (? & Q & _); discriminate]).
    eexists. split; [reflexivity|]. apply G. rewrite seqb_eq. split; [intros ->; eauto|intros (t & Q & ->); congruence].
  - rewrite (textual_left (text E) v w x (proj1 (by_text_textual v) V) X). destruct (ND v w V) as [N _].
    assert (S : is_sql w = true) by (destruct w; destruct W; reflexivity).
    exists (seqb x y). split; [destruct w; destruct W; cbn [is_sql]; rewrite Y; reflexivity|]. rewrite seqb_eq. split.
    + intros ->. right. exists y. split; right; auto.
    + intros [Q|(t & R1 & R2)]; [contradiction|]. apply (RT E v x t V X) in R1. apply (RT E w y t W Y) in R2. congruence.
Qed.
Lemma objects_comparable : forall E, comparable E (sendable E) /\
  forall v w, sendable E v -> sendable E w -> (equal E v w <-> same_value v w \/ exists t, reads E v t /\ reads E w t).
Proof.
  intros E.
  assert (Q : forall v w, sendable E v -> sendable E w -> (equal E v w <-> same_value v w \/ exists t, reads E v t /\ reads E w t)).
  { intros v w V W. destruct (sendable_equal E v w V W) as (b & H & B). unfold equal. rewrite H, <- B. split; congruence. }
  assert (RF : forall v t t', reads E v t -> reads E v t' -> t = t').
  { intros v t t' [A|[B1 T1]] [X|[B2 T2]]; try congruence; subst; [destruct B2|destruct B1]. }
  assert (SR : forall v w t, same_value v w -> reads E v t -> reads E w t).
  { intros v w t [(z & d & z' & d' & A & _)|[(s & A & _)|(<- & _)]] R; [| |exact R]; exfalso; (destruct R as [->|[B _]]; [inversion A|destruct v; destruct B; inversion A]). }
  split; [|exact Q]. split; [|split].
  - intros v w V W. destruct (sendable_equal E v w V W) as (b & H & _). eauto.
  - intros v w V W. rewrite (Q v w V W), (Q w v W V). intros [S|(t & R1 & R2)]; [left; now apply num_sym|right; eauto].
  - intros u v w U V W. rewrite (Q u v U V), (Q v w V W), (Q u w U W). intros [S|(t & R1 & R2)] [S'|(t' & R1' & R2')].
    + left. eapply same_trans; eauto.
    + right. exists t'. split; [|exact R2']. apply (SR v u t'); [now apply num_sym|exact R1'].
    + right. exists t. split; [exact R1|]. exact (SR v w t S' R2).
    + right. exists t. split; [exact R1|]. rewrite (RF v t t' R2 R1'). exact R2'.
Qed.
