(** The text of the four statements agrees with SpecClauses. *)
From Coq Require Import Lia Sorted Permutation.
From Verif Require Import Base BaseFacts NumFmt Value Backend Eq Render RenderFacts ParseArgs Build Queries
  SpecRead SpecRef SpecArgs SpecHistory SpecClauses RefFacts LiteralFacts History PfHistories PfArgs PfDedupe PfClauses.
Open Scope N_scope.

Lemma limit_ok : forall a b x, part_ctx (limit_set (MkLimits a b)) (Ok (limit_str (MkLimits a b))) = Ok x <->
  exists cl, limit_words a b cl /\ x = spaced cl.
Proof.
  intros a b x. unfold limit_set, limit_str, part_ctx. cbn [l_limit l_offset]. split.
  - destruct a as [n|], b as [m|]; cbn [bind]; intros H; injection H as <-; eexists.
    + split; [apply lc_both; apply numeral_dec|]. simpl. rewrite app_nil_r, <- app_assoc. reflexivity.
    + split; [apply lc_limit, numeral_dec|]. simpl. now rewrite app_nil_r.
    + split; [apply lc_offset, numeral_dec|]. simpl. now rewrite app_nil_r.
    + split; [apply lc_none|reflexivity].
  - intros [cl [C ->]]. inversion C as [|n t N|n t N|n m t u N M]; subst; cbn [bind].
    + reflexivity.
    + rewrite (numeral_unique _ _ N). simpl. now rewrite app_nil_r.
    + rewrite (numeral_unique _ _ N). simpl. now rewrite app_nil_r.
    + rewrite (numeral_unique _ _ N), (numeral_unique _ _ M). simpl. rewrite app_nil_r, <- app_assoc. reflexivity.
Qed.

Lemma out_state : forall H, let o := s_out (calls sel_step empty_select H) in
  o_file o = wanted_out OFile (map snd H) /\ o_fields o = wanted_out OFields (map snd H) /\
  o_lines o = wanted_out OLines (map snd H) /\ o_encl o = wanted_out OEncl (map snd H).
Proof.
  intros H. cbn zeta. induction H as [|[W op] H IH] using rev_ind; [repeat split|].
  rewrite calls_snoc, map_app. cbn [map snd]. unfold wanted_out. rewrite !last_snoc.
  change (last_such _ (map snd H)) with (wanted_out OFile (map snd H)) at 1.
  destruct IH as [I1 [I2 [I3 I4]]]. unfold wanted_out in *. rewrite <- I1, <- I2, <- I3, <- I4.
  set (q := calls sel_step empty_select H) in *. clearbody q.
  destruct op; try (repeat split; reflexivity). cbn [sel_step lift1 fst with_out s_out]. unfold set_out.
  assert (C : check_type [TStr] v = match v with VStr _ => true | _ => is_sql v end) by (destruct v; try reflexivity; destruct k; reflexivity).
  rewrite C. destruct f; destruct v; repeat split; reflexivity.
Qed.
Lemma locked_state : forall H, s_forupd (calls sel_step empty_select H) = locked (map snd H).
Proof.
  intros H. induction H as [|[W op] H IH] using rev_ind; [reflexivity|].
  rewrite calls_snoc, map_app. cbn [map snd]. unfold locked. rewrite last_snoc.
  set (q := calls sel_step empty_select H) in *. clearbody q.
  destruct op; try exact IH. simpl. now destruct (truthy allow).
Qed.

Lemma out_opt_ok : forall E kw o x, out_opt E (text E) (c_sp :: kw) o = Ok x <-> exists cl, out_option E kw o cl /\ x = spaced cl.
Proof.
  intros E kw o x. destruct o as [v|]; simpl.
  - rewrite bind_ok. split.
    + intros [a [H1 H2]]. injection H2 as <-. exists [kw ++ a]. split; [constructor; unfold value_text; now rewrite text_V|].
      simpl. now rewrite app_nil_r.
    + intros [cl [C ->]]. inversion C as [|? t V]; subst. unfold value_text in V. rewrite text_V in V. exists t.
      split; [exact V|]. simpl. now rewrite app_nil_r.
  - split; [intros H; injection H as <-; exists []; split; [constructor|reflexivity]|].
    intros [cl [C ->]]. inversion C. reflexivity.
Qed.
Lemma out_ok : forall E H x, let o := s_out (calls sel_step empty_select H) in
  part_ctx (out_set o) (out_str E (text E) o) = Ok x <-> exists cl, out_clause E (map snd H) cl /\ x = spaced cl.
Proof.
  intros E H x o. destruct (out_state H) as [I1 [I2 [I3 I4]]]. fold o in I1, I2, I3, I4. unfold out_set, out_str.
  rewrite I1, I2, I3, I4. unfold part_ctx. clear I1 I2 I3 I4. clearbody o. destruct (wanted_out OFile (map snd H)) as [v|] eqn:F.
  - cbn [out_opt]. rewrite !bind_ok. split.
    + intros [a [H1 H2]]. injection H2 as <-. apply bind_ok in H1. destruct H1 as [t [H1 H2]].
      apply bind_ok in H1. destruct H1 as [t' [H1 H3]]. injection H3 as <-.
      apply bind_ok in H2. destruct H2 as [f [H2 H3]]. apply bind_ok in H3. destruct H3 as [l [H3 H4]].
      apply bind_ok in H4. destruct H4 as [e [H4 H5]]. injection H5 as <-.
      apply (out_opt_ok E (lit "FIELDS TERMINATED BY ")) in H2. apply (out_opt_ok E (lit "LINES TERMINATED BY ")) in H3.
      apply (out_opt_ok E (lit "OPTIONALLY ENCLOSED BY ")) in H4.
      destruct H2 as [f' [H2 ->]], H3 as [l' [H3 ->]], H4 as [e' [H4 ->]].
      exists ((lit "INTO OUTFILE " ++ t') :: f' ++ l' ++ e'). split.
      * eapply oc_file; eauto. unfold value_text. now rewrite text_V.
      * rewrite <- !spaced_app. reflexivity.
    + intros [cl [C ->]]. inversion C as [|v' t f l e F' V O1 O2 O3]; [congruence|]. rewrite F in F'. injection F' as <-. subst.
      unfold value_text in V. rewrite text_V in V.
      exists (lit "INTO OUTFILE " ++ t ++ spaced f ++ spaced l ++ spaced e). split.
      * rewrite V. cbn [bind].
        replace (out_opt E (text E) (lit " FIELDS TERMINATED BY ") (wanted_out OFields (map snd H))) with (@Ok str (spaced f)).
        2:{ symmetry. apply (out_opt_ok E (lit "FIELDS TERMINATED BY ")). eauto. }
        replace (out_opt E (text E) (lit " LINES TERMINATED BY ") (wanted_out OLines (map snd H))) with (@Ok str (spaced l)).
        2:{ symmetry. apply (out_opt_ok E (lit "LINES TERMINATED BY ")). eauto. }
        replace (out_opt E (text E) (lit " OPTIONALLY ENCLOSED BY ") (wanted_out OEncl (map snd H))) with (@Ok str (spaced e)).
        2:{ symmetry. apply (out_opt_ok E (lit "OPTIONALLY ENCLOSED BY ")). eauto. }
        cbn [bind]. now rewrite <- app_assoc.
      * rewrite <- !spaced_app. simpl. reflexivity.
  - split; [intros X; injection X as <-; exists []; split; [now constructor|reflexivity]|].
    intros [cl [C ->]]. inversion C; [reflexivity|congruence].
Qed.

Lemma options_ok : forall H, let o := s_opts (calls sel_step empty_select H) in
  part_ctx (selopts_set o) (Ok (selopts_str o)) = Ok (spaced (map option_name (filter (option_on (map snd H)) alphabetical))).
Proof.
  intros H o. destruct (opts_text o) as [T1 T2]. rewrite T1, T2. rewrite existsb_filter.
  replace (filter (opt_state o) alphabetical) with (filter (option_on (map snd H)) alphabetical).
  2:{ apply filter_ext. intros k. symmetry. apply options_inv. }
  destruct (filter (option_on (map snd H)) alphabetical) as [|k l]; [reflexivity|].
  unfold part_ctx. cbn [negb is_nilb bind map]. change (sjoin (lit " ")) with words. rewrite words_cons. reflexivity.
Qed.
Lemma strip_trimmed : forall d s t, is_space d = false -> strip (d :: s) = t <-> trimmed (d :: s) t.
Proof.
  intros d s t Hd. unfold strip. rewrite lstrip_nonspace by exact Hd. split.
  - intros <-. destruct (rstrip_spec (d :: s)) as [r [H1 [H2 H3]]]. exists r. auto.
  - intros [ws [H1 [H2 H3]]]. destruct (rstrip_spec (d :: s)) as [r [R1 [R2 R3]]].
    set (u := rstrip (d :: s)) in *. clearbody u. rewrite H1 in R1. clear H1 Hd.
    revert ws r H2 R1 R2. induction ws as [|w ws IH] using rev_ind; intros r H2 R1 R2.
    + rewrite app_nil_r in R1. destruct r as [|c r _] using rev_ind; [now rewrite app_nil_r in R1|].
      exfalso. apply (H3 c (u ++ r)); [now rewrite <- app_assoc|]. apply Forall_app in R2. destruct R2 as [_ R2]. now inversion R2.
    + destruct r as [|c r _] using rev_ind.
      * rewrite app_nil_r in R1. exfalso. apply (R3 w (t ++ ws)); [rewrite <- R1; now rewrite app_assoc|].
        apply Forall_app in H2. destruct H2 as [_ H2]. now inversion H2.
      * apply Forall_app in H2, R2. destruct H2 as [H2 _], R2 as [R2 _]. apply (IH r); auto.
        rewrite !app_assoc in R1. now apply app_inj_tail in R1.
Qed.

Lemma order_part : forall E kw l x, kw <> [] ->
  part_ctx (negb (is_nilb l)) (orders_str E (text E) kw l) = Ok x <->
  exists cl, clause (kw ++ [c_sp]) (lit ", ") (order_text E) l cl /\ x = spaced cl.
Proof. intros E kw l x K. unfold orders_str. apply part_clause; [apply order_ok_text|right; auto]. Qed.
Lemma cond_part : forall E kw l x, kw <> [] ->
  part_ctx (negb (is_nilb l)) (conds_str (text E) kw l) = Ok x <->
  exists cl, clause (kw ++ [c_sp]) (lit " AND ") (cond_text E) l cl /\ x = spaced cl.
Proof. intros E kw l x K. unfold conds_str. apply part_clause; [intros; reflexivity|right; auto]. Qed.
Lemma from_part : forall E l x,
  part_ctx (negb (is_nilb l)) (tables_str E (text E) (lit "FROM") l) = Ok x <->
  exists cl, clause (lit "FROM ") (lit ", ") (table_text E) l cl /\ x = spaced cl.
Proof. intros E l x. unfold tables_str. apply part_clause; [apply table_ok|right; split; [discriminate|reflexivity]]. Qed.
Lemma tables_part : forall E l x,
  part_ctx (negb (is_nilb l)) (tables_str E (text E) [] l) = Ok x <->
  exists cl, clause [] (lit ", ") (table_text E) l cl /\ x = spaced cl.
Proof. intros E l x. unfold tables_str. apply part_clause; [apply table_ok|left; auto]. Qed.
Lemma values_part : forall E kw l x,
  part_ctx (negb (is_nilb l)) (values_str (text E) kw l) = Ok x <->
  exists cl, clause (if is_nilb kw then [] else kw ++ [c_sp]) (lit ", ") (cond_text E) l cl /\ x = spaced cl.
Proof.
  intros E kw l x. unfold values_str. apply part_clause; [intros; reflexivity|]. destruct kw; [left; auto|right].
  split; [discriminate|reflexivity].
Qed.
Lemma strip_words : forall d s l t, is_space d = false ->
  strip ((d :: s) ++ spaced l) = t <-> trimmed (words ((d :: s) :: l)) t.
Proof. intros d s l t H. rewrite words_cons. now apply (strip_trimmed d (s ++ spaced l)). Qed.
Lemma spaced_cons : forall x l, spaced (x :: l) = (c_sp :: x) ++ spaced l.
Proof. reflexivity. Qed.
Lemma spaced_nil : spaced [] = [].
Proof. reflexivity. Qed.
Ltac inv_bind H x P := apply bind_ok in H; destruct H as [x [P H]].

Lemma select_statement : forall E H t, let q := calls sel_step empty_select H in
  text E (VSelect q) = Ok t <->
  select_text E (map snd H) (s_cols q) (s_tabs q) (s_where q) (s_group q) (s_having q) (s_order q) t.
Proof.
  intros E H t q. rewrite text_unfold. cbn [str_body]. unfold select_str, select_text.
  pose proof (out_ok E H) as OO. pose proof (options_ok H) as OP. pose proof (limit_state H) as LS. pose proof (locked_state H) as LK.
  fold q in OO, OP, LS, LK. cbn zeta in OO, OP. split.
  - intros X.
    inv_bind X a A. inv_bind X b B. inv_bind X c C. inv_bind X d D. inv_bind X e F. inv_bind X f G.
    inv_bind X g FU. inv_bind X h J. inv_bind X i K. inv_bind X j L.
    unfold part_ctx in A. inv_bind A cols A'. injection A as <-. apply columns_ok in A'.
    apply order_part in B; [|discriminate]. apply cond_part in C; [|discriminate]. apply OO in D.
    rewrite LS in F. apply limit_ok in F. apply order_part in G; [|discriminate]. rewrite LK in FU.
    rewrite OP in J. injection J as <-. apply from_part in K. apply cond_part in L; [|discriminate].
    destruct B as [b' [B ->]], C as [c' [C ->]], D as [d' [D ->]], F as [e' [F ->]], G as [f' [G ->]], K as [i' [K ->]], L as [j' [L ->]].
    exists cols, i', j', b', c', f', e', d'. do 8 (split; [assumption|]).
    assert (I' : g = spaced (if locked (map snd H) then [lit "FOR UPDATE"] else [])).
    { destruct (locked (map snd H)); injection FU as <-; reflexivity. }
    subst g. injection X as X. apply (strip_words 83 (lit "ELECT")); [reflexivity|].
    cbn [app]. rewrite !spaced_app, spaced_cons, !spaced_app. exact X.
  - intros (cols & i' & j' & b' & c' & f' & e' & d' & A & K & L & B & C & G & F & D & T).
    replace (columns_str E (text E) (s_cols q)) with (@Ok str cols) by (symmetry; now apply columns_ok).
    replace (part_ctx (negb (is_nilb (s_group q))) _) with (@Ok str (spaced b')) by (symmetry; apply order_part; [discriminate|eauto]).
    replace (part_ctx (negb (is_nilb (s_having q))) _) with (@Ok str (spaced c')) by (symmetry; apply cond_part; [discriminate|eauto]).
    replace (part_ctx (out_set (s_out q)) _) with (@Ok str (spaced d')) by (symmetry; apply OO; eauto).
    replace (part_ctx (limit_set (s_limit q)) _) with (@Ok str (spaced e')) by (symmetry; rewrite LS; apply limit_ok; eauto).
    replace (part_ctx (negb (is_nilb (s_order q))) _) with (@Ok str (spaced f')) by (symmetry; apply order_part; [discriminate|eauto]).
    rewrite OP.
    replace (part_ctx (negb (is_nilb (s_tabs q))) _) with (@Ok str (spaced i')) by (symmetry; apply from_part; eauto).
    replace (part_ctx (negb (is_nilb (s_where q))) _) with (@Ok str (spaced j')) by (symmetry; apply cond_part; [discriminate|eauto]).
    rewrite LK. replace (part_ctx (locked (map snd H)) (Ok (lit "FOR UPDATE"))) with
      (@Ok str (spaced (if locked (map snd H) then [lit "FOR UPDATE"] else []))) by (destruct (locked (map snd H)); reflexivity).
    cbn [part_ctx bind]. f_equal. apply (strip_words 83 (lit "ELECT")) in T; [|reflexivity].
    cbn [app] in T. rewrite !spaced_app, spaced_cons, !spaced_app in T. exact T.
Qed.

(** ** UPDATE and DELETE *)
Lemma ignore_part : forall b, part_ctx b (Ok (lit "IGNORE")) = Ok (spaced (if b then [lit "IGNORE"] else [])).
Proof. intros []; reflexivity. Qed.
Lemma upd_ignored : forall H, (if u_ignore (calls upd_step empty_update H) then [lit "IGNORE"] else []) =
  ignored_ (last_such (fun op => match op with UIgnore v => Some (truthy v) | _ => None end) (map snd H)).
Proof.
  intros H. induction H as [|[W op] H IH] using rev_ind; [reflexivity|].
  rewrite calls_snoc, map_app. cbn [map snd]. rewrite last_snoc.
  set (q := calls upd_step empty_update H) in *. clearbody q. destruct q as [ig tb vs wh al].
  destruct op; try exact IH; simpl; now destruct (truthy allow).
Qed.
Lemma del_ignored : forall H, (if d_ignore (calls del_step empty_delete H) then [lit "IGNORE"] else []) =
  ignored_ (last_such (fun op => match op with DIgnore v => Some (truthy v) | _ => None end) (map snd H)).
Proof.
  intros H. induction H as [|[W op] H IH] using rev_ind; [reflexivity|].
  rewrite calls_snoc, map_app. cbn [map snd]. rewrite last_snoc.
  set (q := calls del_step empty_delete H) in *. clearbody q. destruct q as [ig tb vs wh al].
  destruct op; try exact IH; simpl; now destruct (truthy allow).
Qed.
Lemma ins_ignored : forall H, (if i_ignore (calls ins_step empty_insert H) then [lit "IGNORE"] else []) =
  ignored_ (last_such (fun op => match op with IIgnore v => Some (truthy v) | _ => None end) (map snd H)).
Proof.
  intros H. induction H as [|[W op] H IH] using rev_ind; [reflexivity|].
  rewrite calls_snoc, map_app. cbn [map snd]. rewrite last_snoc.
  set (q := calls ins_step empty_insert H) in *. clearbody q. destruct q as [rp ig tb rows dup cf upd].
  assert (S : i_ignore (fst (ins_step W (MkIns rp ig tb rows dup cf upd) op)) = match op with IIgnore v => truthy v | _ => ig end).
  { destruct op; try reflexivity. cbn [ins_step].
    destruct (if supports_on_duplicate_key_update _ then _ else _) as [dup' [|]]; [|reflexivity].
    destruct (if supports_on_conflict_do_update _ then _ else _) as [[cf' upd'] [|]]; [|reflexivity].
    destruct (supports_replace_into _); [|reflexivity]. destruct (negb _ || negb _); reflexivity. }
  cbn [fst snd] in *. rewrite S. destruct op; try exact IH; simpl; now destruct (truthy allow).
Qed.
Lemma guard_off : forall (w : list val) (al : bool), is_nilb w && negb al = false <-> w <> [] \/ al = true.
Proof.
  intros [|x w] [|]; simpl; split; intros H; auto; try (left; discriminate); try discriminate. destruct H as [H|H]; congruence.
Qed.
Lemma update_statement : forall E H t, let q := calls upd_step empty_update H in
  text E (VUpdate q) = Ok t <->
  (u_where q <> [] \/ update_confirmed (map snd H)) /\ update_text E (map snd H) (u_tabs q) (u_vals q) (u_where q) t.
Proof.
  intros E H t q. rewrite text_unfold. cbn [str_body]. unfold update_str, update_text.
  rewrite <- (upd_ignored H), <- (upd_allow_inv H). fold q. rewrite <- guard_off.
  destruct (is_nilb (u_where q) && negb (u_allow q)); [split; [discriminate|intros [? _]; discriminate]|].
  rewrite ignore_part. split.
  - intros X. split; [reflexivity|]. inv_bind X a A. inv_bind X b B. inv_bind X c C. inv_bind X d D.
    apply tables_part in A. injection B as <-. apply (values_part E []) in C. apply cond_part in D; [|discriminate].
    destruct A as [a' [A ->]], C as [c' [C ->]], D as [d' [D ->]]. exists a', c', d'. do 3 (split; [assumption|]).
    injection X as X. apply (strip_words 85 (lit "PDATE")); [reflexivity|].
    cbn [app]. rewrite !spaced_app, spaced_cons, !spaced_app. exact X.
  - intros [_ (a' & c' & d' & A & C & D & T)].
    replace (part_ctx (negb (is_nilb (u_tabs q))) _) with (@Ok str (spaced a')) by (symmetry; apply tables_part; eauto).
    replace (part_ctx (negb (is_nilb (u_vals q))) _) with (@Ok str (spaced c')) by (symmetry; apply (values_part E []); eauto).
    replace (part_ctx (negb (is_nilb (u_where q))) _) with (@Ok str (spaced d')) by (symmetry; apply cond_part; [discriminate|eauto]).
    cbn [bind]. f_equal. apply (strip_words 85 (lit "PDATE")) in T; [|reflexivity].
    cbn [app] in T. rewrite !spaced_app, spaced_cons, !spaced_app in T. exact T.
Qed.
Lemma delete_statement : forall E H t, let q := calls del_step empty_delete H in
  text E (VDelete q) = Ok t <->
  (d_where q <> [] \/ delete_confirmed (map snd H)) /\ delete_text E (map snd H) (d_tabs q) (d_refs q) (d_where q) t.
Proof.
  intros E H t q. rewrite text_unfold. cbn [str_body]. unfold delete_str, delete_text.
  rewrite <- (del_ignored H), <- (del_allow_inv H). fold q. rewrite <- guard_off.
  destruct (is_nilb (d_where q) && negb (d_allow q)); [split; [discriminate|intros [? _]; discriminate]|].
  rewrite ignore_part. split.
  - intros X. split; [reflexivity|]. inv_bind X a A. inv_bind X b B. inv_bind X c C. inv_bind X d D.
    injection A as <-. apply tables_part in B, C. apply cond_part in D; [|discriminate].
    destruct B as [b' [B ->]], C as [c' [C ->]], D as [d' [D ->]]. exists c', b', d'. do 3 (split; [assumption|]).
    injection X as X. apply (strip_words 68 (lit "ELETE")); [reflexivity|].
    cbn [app]. rewrite !spaced_app, spaced_cons, !spaced_app. exact X.
  - intros [_ (c' & b' & d' & C & B & D & T)].
    replace (part_ctx (negb (is_nilb (d_tabs q))) _) with (@Ok str (spaced c')) by (symmetry; apply tables_part; eauto).
    replace (part_ctx (negb (is_nilb (d_refs q))) _) with (@Ok str (spaced b')) by (symmetry; apply tables_part; eauto).
    replace (part_ctx (negb (is_nilb (d_where q))) _) with (@Ok str (spaced d')) by (symmetry; apply cond_part; [discriminate|eauto]).
    cbn [bind]. f_equal. apply (strip_words 68 (lit "ELETE")) in T; [|reflexivity].
    cbn [app] in T. rewrite !spaced_app, spaced_cons, !spaced_app in T. exact T.
Qed.

(** ** INSERT *)
Lemma sinsert_in : forall x l y, In y (sinsert x l) <-> y = x \/ In y l.
Proof.
  intros x l y. induction l as [|z l IH]; simpl; [intuition|]. destruct (sltb x z); simpl; [intuition|]. rewrite IH. intuition.
Qed.
Lemma ssort_in : forall l y, In y (ssort l) <-> In y l.
Proof. induction l as [|x l IH]; intros y; simpl; [tauto|]. rewrite sinsert_in, IH. intuition. Qed.
Lemma suniq_in : forall l y, In y (suniq l) <-> In y l.
Proof.
  induction l as [|x l IH]; intros y; simpl; [tauto|]. destruct (existsb (seqb x) l) eqn:X.
  - rewrite IH. split; [auto|]. intros [<-|H]; [|exact H]. apply existsb_exists in X. destruct X as [z [Z1 Z2]].
    apply seqb_eq in Z2. now subst.
  - simpl. rewrite IH. tauto.
Qed.
Lemma suniq_nodup : forall l, NoDup (suniq l).
Proof.
  induction l as [|x l IH]; simpl; [constructor|]. destruct (existsb (seqb x) l) eqn:X; [exact IH|].
  constructor; [|exact IH]. intros C. rewrite suniq_in in C.
  assert (existsb (seqb x) l = true) by (apply existsb_exists; exists x; split; [exact C|apply seqb_refl]). congruence.
Qed.
Lemma sinsert_sorted : forall x l, ~ In x l -> StronglySorted before l -> StronglySorted before (sinsert x l).
Proof.
  intros x l. induction l as [|y l IH]; intros N S; simpl; [repeat constructor|].
  inversion S as [|? ? S1 S2]; subst. destruct (sltb x y) eqn:L.
  - apply sltb_before in L. constructor; [exact S|]. constructor; [exact L|].
    eapply Forall_impl; [|exact S2]. intros z Hz. eapply before_trans; eauto.
  - constructor; [apply IH; [intros C; apply N; now right|exact S1]|].
    apply Forall_forall. intros z Hz. apply sinsert_in in Hz. destruct Hz as [->|Hz].
    + apply before_total; [exact L|]. intros C. apply N. left. auto.
    + rewrite Forall_forall in S2. auto.
Qed.
Lemma ssort_sorted : forall l, NoDup l -> StronglySorted before (ssort l).
Proof.
  intros l N. induction N as [|x l N1 N IH]; simpl; [constructor|]. apply sinsert_sorted; [|exact IH]. now rewrite ssort_in.
Qed.
Lemma sorted_nodup : forall l, StronglySorted before l -> NoDup l.
Proof.
  intros l S. induction S as [|x l S IH F]; constructor; [|exact IH]. intros C. rewrite Forall_forall in F.
  apply F in C. now apply before_irrefl in C.
Qed.
Lemma sorted_same : forall l m, StronglySorted before l -> StronglySorted before m -> (forall x, In x l <-> In x m) -> l = m.
Proof.
  intros l m S1 S2 H. apply (sorted_unique _ before before_trans before_irrefl); auto.
  apply NoDup_Permutation; auto using sorted_nodup.
Qed.
Lemma part_columns : forall ps cs, mapM part_column ps = Ok cs <->
  exists row, ps = row_parts row /\ cs = map fst row.
Proof.
  intros ps. induction ps as [|p ps IH]; intros cs; simpl.
  - split; [intros H; injection H as <-; exists []; auto|]. intros [[|x row] [H1 ->]]; [reflexivity|discriminate].
  - split.
    + destruct (part_column p) as [c|] eqn:P; [|discriminate]. destruct (mapM part_column ps) as [cs'|]; [|discriminate].
      intros H. injection H as <-. destruct (proj1 (IH cs') eq_refl) as [row [-> ->]].
      destruct p; try discriminate. destruct p1; try discriminate. injection P as ->. exists ((c, p2) :: row). auto.
    + intros [[|[c v] row] [H1 ->]]; [discriminate|]. injection H1 as -> ->. simpl.
      rewrite (proj2 (IH (map fst row))); eauto.
Qed.
Lemma concat_parts : forall rows row, List.concat rows = row_parts row ->
  exists rs, rows = map row_parts rs /\ row = List.concat rs.
Proof.
  induction rows as [|r rows IH]; intros row H; simpl in H.
  - destruct row; [|discriminate]. exists []. auto.
  - assert (G : forall a b l, a ++ b = row_parts l -> exists l1 l2, a = row_parts l1 /\ b = row_parts l2 /\ l = l1 ++ l2).
    { induction a as [|x a IHa]; intros b l Q; [exists [], l; auto|]. destruct l as [|p l]; [discriminate|].
      injection Q as -> Q. destruct (IHa _ _ Q) as [l1 [l2 [-> [-> ->]]]]. exists (p :: l1), l2. auto. }
    destruct (G _ _ _ H) as [l1 [l2 [-> [H2 ->]]]]. destruct (IH _ H2) as [rs [-> ->]]. exists (l1 :: rs). auto.
Qed.
Lemma concat_row_parts : forall rs, List.concat (map row_parts rs) = row_parts (List.concat rs).
Proof. induction rs as [|r rs IH]; simpl; [reflexivity|]. rewrite IH. unfold row_parts. now rewrite map_app. Qed.
Lemma all_columns_ok : forall rows cols, all_columns rows = Ok cols <->
  exists rs, rows = map row_parts rs /\ insert_columns rs cols.
Proof.
  intros rows cols. unfold all_columns. rewrite bind_ok.
  assert (M : forall (rs : list (list (str * val))) c, In c (map fst (List.concat rs)) <-> exists row, In row rs /\ In c (map fst row)).
  { intros rs c. rewrite concat_map, in_concat. split.
    - intros [x [H1 H2]]. apply in_map_iff in H1. destruct H1 as [r [<- H1]]. eauto.
    - intros [r [H1 H2]]. exists (map fst r). split; [now apply in_map|exact H2]. }
  split.
  - intros [cs [H1 H2]]. injection H2 as <-. apply part_columns in H1. destruct H1 as [row [H1 ->]].
    apply concat_parts in H1. destruct H1 as [rs [-> ->]]. exists rs. split; [reflexivity|]. split.
    + apply ssort_sorted, suniq_nodup.
    + intros c. now rewrite ssort_in, suniq_in.
  - intros [rs [-> [S I]]]. exists (map fst (List.concat rs)). split; [apply part_columns; exists (List.concat rs); split; [apply concat_row_parts|reflexivity]|].
    f_equal. apply sorted_same; [apply ssort_sorted, suniq_nodup|exact S|]. intros c. rewrite ssort_in, suniq_in, I. apply M.
Qed.
Lemma row_value_snoc : forall row c' v' c, row_value (row_parts (row ++ [(c', v')])) c = if seqb c c' then v' else row_value (row_parts row) c.
Proof. intros. unfold row_value, row_parts. rewrite map_app, fold_left_app. reflexivity. Qed.
Lemma row_value_given : forall row c, given row c (row_value (row_parts row) c).
Proof.
  intros row c. induction row as [|[c' v'] row IH] using rev_ind; [now apply gv_none|].
  rewrite row_value_snoc. destruct (seqb c c') eqn:Q.
  - apply seqb_eq in Q. subst. apply (gv_last _ _ row _ []); [reflexivity|auto].
  - apply seqb_neq in Q. inversion IH as [pre v post R N Hv|N Hv].
    + subst v. rewrite R at 1. apply (gv_last _ _ pre _ (post ++ [(c', v')])); [now rewrite <- app_assoc|]. rewrite map_app, in_app_iff. simpl. intuition congruence.
    + apply gv_none. rewrite map_app, in_app_iff. simpl. intuition congruence.
Qed.
Lemma given_fun : forall row c v w, given row c v -> given row c w -> v = w.
Proof.
  intros row c v w H1 H2.
  assert (G : forall x, given row c x -> row_value (row_parts row) c = x).
  { clear. intros x H. induction row as [|[c' v'] row IH] using rev_ind.
    - inversion H as [pre v post Q|]; subst; [destruct pre; discriminate|reflexivity].
    - rewrite row_value_snoc. inversion H as [pre v post Q N|N]; subst.
      + destruct post as [|p post _] using rev_ind.
        * apply app_inj_tail in Q. destruct Q as [_ Q]. injection Q as -> ->. now rewrite seqb_refl.
        * change (pre ++ (c, x) :: post ++ [p]) with (pre ++ ((c, x) :: post) ++ [p]) in Q. rewrite app_assoc in Q.
          apply app_inj_tail in Q. destruct Q as [-> Q]. subst p. rewrite map_app, in_app_iff in N. simpl in N.
          replace (seqb c c') with false by (symmetry; apply seqb_neq; intuition congruence).
          apply IH. apply (gv_last _ _ pre _ post); [reflexivity|tauto].
      + rewrite map_app, in_app_iff in N. simpl in N.
        replace (seqb c c') with false by (symmetry; apply seqb_neq; intuition congruence).
        apply IH. apply gv_none. tauto. }
  now rewrite <- (G v H1), <- (G w H2).
Qed.
Lemma row_ok : forall E cols row t, row_str E (text E) cols (row_parts row) = Ok t <-> row_text E cols row t.
Proof.
  intros E cols row t. unfold row_str, row_text. rewrite bind_ok. split.
  - intros [ts [H1 H2]]. injection H2 as <-. exists (map (row_value (row_parts row)) cols), ts. split; [|split; [|reflexivity]].
    + clear. induction cols; constructor; auto. apply row_value_given.
    + apply mapM_ok in H1. clear - H1. induction H1 as [|c u cols ts V F IH]; constructor; [|exact IH]. unfold value_text. rewrite text_V. exact V.
  - intros [vs [ts [H1 [H2 ->]]]]. exists ts. split; [|reflexivity]. apply mapM_ok.
    revert ts H2. induction H1 as [|c v cols vs G H1 IH]; intros ts H2; inversion H2 as [|? ? ? ? T H3]; subst; constructor; auto.
    unfold value_text in T. rewrite text_V in T. now rewrite (given_fun _ _ _ _ (row_value_given row c) G).
Qed.
Lemma rows_ok : forall E rows t, rows_str E (text E) rows = Ok t <-> exists rs, rows = map row_parts rs /\ rows_text E rs t.
Proof.
  intros E rows t. unfold rows_str, rows_text. rewrite bind_ok.
  assert (NM : forall cols u, separated (lit ", ") (fun c => name_text E (VStr c)) cols u <-> u = sjoin (lit ", ") (map (reference (e_be E)) cols)).
  { intros cols u. unfold separated. split.
    - intros [ts [F ->]]. f_equal. induction F as [|c u cols ts N F IH]; [reflexivity|]. simpl. rewrite <- IH. f_equal.
      unfold name_text in N. rewrite text_R in N. now injection N as <-.
    - intros ->. exists (map (reference (e_be E)) cols). split; [|reflexivity]. induction cols; constructor; auto. unfold name_text. now rewrite text_R. }
  split.
  - intros [cols [H1 H2]]. apply all_columns_ok in H1. destruct H1 as [rs [-> C]]. apply bind_ok in H2. destruct H2 as [ts [H2 H3]].
    injection H3 as <-. exists rs. split; [reflexivity|]. exists cols, (sjoin (lit ", ") (map (reference (e_be E)) cols)), (sjoin (lit ", ") ts). split; [exact C|]. split; [apply NM; reflexivity|].
    split; [|reflexivity]. exists ts. split; [|reflexivity]. apply mapM_ok in H2. clear - H2.
    remember (map row_parts rs) as m. revert rs Heqm. induction H2 as [|x u m ts X H2 IH]; intros rs Q; destruct rs as [|r rs]; try discriminate; constructor.
    + injection Q as -> _. now apply row_ok.
    + injection Q as _ Q. auto.
  - intros [rs [-> [cols [names [rt [C [N [S ->]]]]]]]]. exists cols. split; [apply all_columns_ok; eauto|].
    apply NM in N. subst names. destruct S as [ts [F ->]]. apply bind_ok. exists ts. split; [|reflexivity].
    apply mapM_ok. clear C. induction F; constructor; auto. now apply row_ok.
Qed.
Lemma rows_part : forall E rows x, part_ctx (negb (is_nilb rows)) (rows_str E (text E) rows) = Ok x <->
  exists cl, rows_clause E rows cl /\ x = spaced cl.
Proof.
  intros E rows x. destruct rows as [|r rows]; simpl negb.
  - split; [intros H; injection H as <-; exists []; split; [constructor|reflexivity]|].
    intros [cl [C ->]]. inversion C as [|rs t N R Q]; subst; [reflexivity|]. destruct rs; [congruence|discriminate].
  - unfold part_ctx. rewrite bind_ok. split.
    + intros [t [H1 H2]]. injection H2 as <-. apply rows_ok in H1. destruct H1 as [rs [Q R]]. exists [t]. split.
      * rewrite Q. constructor; [destruct rs; discriminate|exact R].
      * rewrite spaced_cons, spaced_nil. now rewrite app_nil_r.
    + intros [cl [C ->]]. inversion C as [|rs t N R Q]; subst. exists t. split; [apply rows_ok; eauto|].
      rewrite spaced_cons, spaced_nil. now rewrite app_nil_r.
Qed.
Lemma insert_statement : forall E H t, let q := calls ins_step empty_insert H in
  text E (VInsert q) = Ok t <->
  insert_text E (map snd H) (i_replace q) (i_tabs q) (i_rows q) (i_dup q) (i_conflict q) (i_upd q) t.
Proof.
  intros E H t q. rewrite text_unfold. cbn [str_body]. unfold insert_str, insert_text.
  rewrite <- (ins_ignored H). fold q. rewrite ignore_part.
  assert (CC : forall cc, conflict_text E (i_conflict q) cc -> (conflict_keyword E (i_conflict q)) ++ [c_sp] = lit "ON CONFLICT (" ++ cc ++ lit ") DO UPDATE ").
  { intros cc C. unfold conflict_keyword, conflict_text in *. destruct (i_conflict q) as [s|].
    - unfold name_text in C. rewrite text_R in C. injection C as <-. rewrite <- !app_assoc. reflexivity.
    - subst cc. reflexivity. }
  assert (CE : exists cc, conflict_text E (i_conflict q) cc).
  { unfold conflict_text. destruct (i_conflict q) as [s|]; [|eauto]. unfold name_text. rewrite text_R. simpl. eauto. }
  assert (VP : forall x cc, conflict_text E (i_conflict q) cc ->
    part_ctx (negb (is_nilb (i_upd q))) (values_str (text E) (conflict_keyword E (i_conflict q)) (i_upd q)) = Ok x <->
    exists cl, clause (lit "ON CONFLICT (" ++ cc ++ lit ") DO UPDATE ") (lit ", ") (cond_text E) (i_upd q) cl /\ x = spaced cl).
  { intros x cc C. rewrite values_part. rewrite <- (CC _ C). replace (is_nilb (conflict_keyword E (i_conflict q))) with false; [reflexivity|].
    unfold conflict_keyword. reflexivity. }
  assert (K : exists d s, (if i_replace q then lit "REPLACE" else lit "INSERT") = d :: s /\ is_space d = false).
  { destruct (i_replace q); [exists 82, (lit "EPLACE")|exists 73, (lit "NSERT")]; split; reflexivity. }
  destruct K as [kd [ks [K Kd]]]. rewrite K. clear K.
  assert (LS : forall l, strip ((c_sp :: kd :: ks) ++ l) = strip ((kd :: ks) ++ l)) by reflexivity.
  split.
  - intros X. inv_bind X a A. inv_bind X b B. inv_bind X c C. inv_bind X d D. inv_bind X e F. inv_bind X f G.
    injection A as <-. cbn [part_ctx bind] in B. injection B as <-. destruct CE as [cc CE]. apply (VP _ _ CE) in C.
    apply (values_part E (lit "ON DUPLICATE KEY UPDATE")) in D. apply tables_part in F. apply rows_part in G.
    destruct C as [c' [C ->]], D as [d' [D ->]], F as [e' [F ->]], G as [f' [G ->]].
    exists e', f', d', cc, c'. do 5 (split; [assumption|]). injection X as X.
    apply (strip_words kd ks); [exact Kd|]. cbn [app]. rewrite !spaced_app, spaced_cons, !spaced_app. exact X.
  - intros (e' & f' & d' & cc & c' & F & G & D & CT & C & T).
    cbn [bind part_ctx].
    replace (part_ctx (negb (is_nilb (i_upd q))) _) with (@Ok str (spaced c')) by (symmetry; apply (VP _ cc CT); eauto).
    replace (part_ctx (negb (is_nilb (i_dup q))) _) with (@Ok str (spaced d')) by (symmetry; apply (values_part E (lit "ON DUPLICATE KEY UPDATE")); eauto).
    replace (part_ctx (negb (is_nilb (i_tabs q))) _) with (@Ok str (spaced e')) by (symmetry; apply tables_part; eauto).
    replace (part_ctx (negb (is_nilb (i_rows q))) _) with (@Ok str (spaced f')) by (symmetry; apply rows_part; eauto).
    cbn [bind]. f_equal. apply (strip_words kd ks) in T; [|exact Kd].
    cbn [app] in T. rewrite !spaced_app, spaced_cons, !spaced_app in T. exact T.
Qed.
