(** Which conditions are blank: C30. *)
From Coq Require Import Lia.
From Verif Require Import Base BaseFacts NumFmt Value Backend Eq Render RenderFacts ParseArgs Build Queries History
  SpecRead SpecRef SpecHistory SpecVacuous LiteralFacts RefFacts PfLiterals PfHistories.
Open Scope N_scope.

Definition solid (s : str) : Prop := exists c, In c s /\ is_space c = false.
Lemma solid_l : forall a b, solid a -> solid (a ++ b).
Proof. intros a b [c [I C]]. exists c. split; [apply in_or_app; now left|exact C]. Qed.
Lemma solid_r : forall a b, solid b -> solid (a ++ b).
Proof. intros a b [c [I C]]. exists c. split; [apply in_or_app; now right|exact C]. Qed.
Lemma solid_cons : forall c s, is_space c = false -> solid (c :: s).
Proof. intros c s C. exists c. split; [now left|exact C]. Qed.
Lemma solid_tail : forall c s, solid s -> solid (c :: s).
Proof. intros c s H. exact (solid_r [c] s H). Qed.
Lemma space_iff : forall c, is_space c = true <-> whitespace c.
Proof. exact whitespace_ok. Qed.
Lemma solid_not_blank : forall s, solid s -> ~ Forall whitespace s.
Proof. intros s [c [I C]] F. rewrite Forall_forall in F. apply F in I. apply space_iff in I. congruence. Qed.

Lemma blank_dec : forall s, Forall whitespace s \/ solid s.
Proof.
  induction s as [|c s IH]; [left; constructor|]. destruct (is_space c) eqn:C; [|right; now apply solid_cons].
  destruct IH as [IH|IH]; [left; constructor; [now apply space_iff|exact IH]|right; now apply solid_tail].
Qed.
Lemma lstrip_keeps : forall s, solid s -> solid (lstrip s).
Proof.
  induction s as [|x s IH]; intros [c [I C]]; [destruct I|]. cbn [lstrip]. destruct (is_space x) eqn:X.
  - apply IH. destruct I as [->|I]; [congruence|]. now exists c.
  - exists c. now split.
Qed.
Lemma rev_keeps : forall s, solid s -> solid (rev s).
Proof. intros s [c [I C]]. exists c. split; [now apply -> in_rev|exact C]. Qed.
Lemma strip_keeps : forall s, solid s -> solid (strip s).
Proof. intros s H. unfold strip, rstrip. apply rev_keeps, lstrip_keeps, rev_keeps, lstrip_keeps, H. Qed.

Lemma z_dec_solid : forall z, solid (z_dec z).
Proof.
  intros z. destruct (numeral_ends z (z_dec z) (numeral_dec z)) as [a [c [-> C]]]. apply solid_r. now apply solid_cons.
Qed.
Lemma fmt5_solid : forall d x, solid (fmt5 d x).
Proof.
  intros d x. destruct x as [neg n dd|neg|]; cbn [fmt5].
  - apply solid_r, solid_r, solid_l. apply solid_cons. reflexivity.
  - apply solid_r. destruct d; apply solid_cons; reflexivity.
  - destruct d; apply solid_cons; reflexivity.
Qed.
Lemma paren_solid : forall s, solid (paren s).
Proof. intros s. apply solid_cons. reflexivity. Qed.
Lemma quote_not_space : forall b, is_space (ref_quote b) = false.
Proof. now intros []. Qed.

(** A reference is blank for a str of dots only. *)
Lemma split_all : forall q s acc, q <> 46 -> (forall i, In i (split_ref q s acc 0) -> i = []) -> acc = [] /\ Forall (eq 46) s.
Proof.
  intros q s. induction s as [|c s IH]; intros acc Q H; cbn [split_ref] in H.
  - split; [|constructor]. specialize (H _ (or_introl eq_refl)). destruct acc; [reflexivity|]. simpl in H. now apply app_eq_nil in H as [_ H].
  - destruct (c =? q) eqn:C.
    + destruct (quoted_chunk q s) as [x|] eqn:K.
      * exfalso. specialize (H x (or_intror (or_introl eq_refl))). subst x. unfold quoted_chunk in K.
        destruct (span_not q s) as [[|? ?] [|? ?]]; discriminate.
      * destruct (IH _ Q H) as [N _]. discriminate.
    + destruct (c =? c_dot) eqn:D.
      * apply N.eqb_eq in D. subst c. assert (A : rev acc = []) by (apply H; now left).
        destruct (IH [] Q) as [_ F]; [intros i I; apply H; now right|]. split; [|constructor; [reflexivity|exact F]].
        destruct acc; [reflexivity|]. simpl in A. now apply app_eq_nil in A as [_ A].
      * destruct (IH _ Q H) as [N _]. discriminate.
Qed.
Lemma dots_split : forall q s, q <> 46 -> Forall (eq 46) s -> forall i, In i (split_ref q s [] 0) -> i = [].
Proof.
  intros q s Q F. induction F as [|c s <- F IH]; intros i I.
  - destruct I as [<-|[]]. reflexivity.
  - rewrite split_ref_dot in I by exact Q. destruct I as [<-|I]; [reflexivity|now apply IH].
Qed.
Lemma sjoin_solid : forall sep l x, In x l -> solid x -> solid (sjoin sep l).
Proof.
  intros sep l. induction l as [|a l IH]; intros x I S; [destruct I|]. destruct l as [|b l].
  - destruct I as [->|[]]. exact S.
  - change (sjoin sep (a :: b :: l)) with (a ++ sep ++ sjoin sep (b :: l)). destruct I as [->|I].
    + now apply solid_l.
    + apply solid_r, solid_r. now apply (IH x).
Qed.
Lemma ref_quote_dot : forall b, ref_quote b <> 46.
Proof. intros []; discriminate. Qed.
Lemma reference_blank : forall b s, reference b s = [] \/ solid (reference b s).
Proof.
  intros b s. unfold reference. destruct (filter _ _) as [|i l] eqn:F; [now left|]. right.
  apply (sjoin_solid _ _ (quote_part (ref_quote b) i)); [now left|]. unfold quote_part.
  destruct (seqb i [c_star]) eqn:S.
  - apply seqb_eq in S. subst i. apply solid_cons. reflexivity.
  - apply solid_cons, quote_not_space.
Qed.
Lemma reference_dots : forall b s, reference b s = [] <-> Forall (eq 46) s.
Proof.
  intros b s. split.
  - intros R. apply (split_all (ref_quote b) s [] (ref_quote_dot b)). intros i I. destruct i as [|c i]; [reflexivity|exfalso].
    unfold reference in R. destruct (filter (fun i => negb (is_nilb i)) (split_ref (ref_quote b) s [] 0)) as [|j l] eqn:F.
    + assert (G : In (c :: i) []) by (rewrite <- F; apply filter_In; split; [exact I|reflexivity]). destruct G.
    + assert (S : solid (sjoin [c_dot] (map (quote_part (ref_quote b)) (j :: l)))).
      { apply (sjoin_solid _ _ (quote_part (ref_quote b) j)); [now left|]. unfold quote_part.
        destruct (seqb j [c_star]) eqn:S; [apply seqb_eq in S; subst j; apply solid_cons; reflexivity|apply solid_cons, quote_not_space]. }
      rewrite R in S. destruct S as [? [[] _]].
  - intros F. unfold reference. replace (filter _ _) with (@nil str); [reflexivity|]. symmetry.
    assert (H := dots_split (ref_quote b) s (ref_quote_dot b) F). induction (split_ref (ref_quote b) s [] 0) as [|i l IH]; [reflexivity|].
    simpl. rewrite (H i (or_introl eq_refl)). cbn [is_nilb negb]. apply IH. intros j J. apply H. now right.
Qed.
Lemma reference_whitespace : forall b s, Forall whitespace (reference b s) <-> Forall (eq 46) s.
Proof.
  intros b s. rewrite <- reference_dots. split.
  - intros F. destruct (reference_blank b s) as [R|R]; [exact R|]. now apply solid_not_blank in R.
  - intros ->. constructor.
Qed.
Lemma sql_string_solid : forall b s, solid (sql_string b s).
Proof.
  intros b s. unfold sql_string. destruct (is_reference b s) eqn:R; [|apply solid_cons; reflexivity].
  destruct (reference_blank b s) as [N|N]; [|exact N]. exfalso. apply reference_dots in N. apply is_reference_ok in R.
  destruct R as [m [[l [r [-> _]]] P]]. apply inside_has_quote in P. rewrite Forall_forall in N.
  assert (D : 46 = quote_of b) by (apply N; rewrite !in_app_iff; auto). destruct b; discriminate.
Qed.
Lemma undefined_solid : forall E v, solid (undefined E v).
Proof. intros E v. unfold undefined. destruct (pytext E v); apply solid_cons; reflexivity. Qed.
Lemma rel_solid : forall k, solid (rel_str k).
Proof. intros []; apply solid_cons; reflexivity. Qed.

Lemma fmt_plain_solid : forall col k v t, fmt_plain col k v = Ok t -> solid t.
Proof.
  intros [c|] k [x|] t H; try discriminate. injection H as <-. apply solid_r, solid_tail, solid_l, rel_solid.
Qed.
Lemma fmt_solid : forall col k tr v t, fmt_condition col k tr v = Ok t -> solid t.
Proof.
  assert (F : forall col k tr v t, fmt_in col k tr v = Ok t -> solid t).
  { intros col k tr v t H. destruct v; cbn [fmt_in] in H; try (eapply fmt_plain_solid; exact H).
    destruct (existsb is_none l); [|eapply fmt_plain_solid; exact H].
    destruct (is_nilb _); [|destruct (tr _) as [x|]]; destruct col as [c|], k; try discriminate H; injection H as <-;
      first [apply solid_r; exists 73; split; [right; now left|reflexivity]|apply solid_cons; reflexivity]. }
  intros col k tr v t H. unfold fmt_condition in H. destruct k; try (eapply fmt_plain_solid; exact H); eapply F; exact H.
Qed.

Ltac part H := match type of H with context [bind ?x _] => destruct x; [cbn [bind] in H|discriminate H] end.
Definition plainly (v : val) : bool := match v with VCustom _ | VSqlV _ | VSqlR _ | VConds _ => false | _ => is_sql v end.
Lemma plainly_solid : forall E v t, plainly v = true -> text E v = Ok t -> solid t.
Proof.
  intros E v t P H. rewrite text_unfold in H. destruct v; try discriminate P; cbn [str_body] in H.
  - part H. injection H as <-. apply solid_cons. reflexivity.
  - eapply fmt_solid. exact H.
  - unfold value_str in H. part H. part H. injection H as <-. apply solid_r. exists 61. split; [right; now left|reflexivity].
  - part H. part H. injection H as <-. apply paren_solid.
  - part H. injection H as <-. apply solid_cons. reflexivity.
  - part H. injection H as <-. apply solid_cons. reflexivity.
  - part H. injection H as <-. apply solid_r, paren_solid.
  - part H. injection H as <-. apply solid_cons. reflexivity.
  - part H. part H. part H. injection H as <-. apply solid_cons. reflexivity.
  - part H. injection H as <-. apply solid_cons. reflexivity.
  - unfold select_str in H. do 10 part H. injection H as <-. apply strip_keeps, solid_cons. reflexivity.
  - part H. part H. injection H as <-. apply solid_r, solid_l. destruct t0; exists 85; (split; [right; now left|reflexivity]).
  - unfold insert_str in H. part H. part H. part H. part H. part H. part H. injection H as <-. apply strip_keeps. apply solid_r, solid_r.
    exists 73. split; [right; now left|reflexivity].
  - unfold update_str in H. destruct (_ && _); [discriminate|]. do 4 part H. injection H as <-. apply strip_keeps, solid_cons. reflexivity.
  - unfold delete_str in H. destruct (_ && _); [discriminate|]. do 4 part H. injection H as <-. apply strip_keeps, solid_cons. reflexivity.
Qed.

Lemma sqlvalue_data : forall E r v t, is_sql v = false -> sqlvalue E r v = Ok t -> solid t.
Proof.
  intros E r v t S H. destruct v; try discriminate S; cbn [sqlvalue] in H; try (injection H as <-).
  - apply solid_cons; reflexivity.
  - unfold be_boolean. destruct (e_be E), b; try apply z_dec_solid; apply solid_cons; reflexivity.
  - apply z_dec_solid.
  - apply fmt5_solid.
  - apply fmt5_solid.
  - apply sql_string_solid.
  - unfold be_bytes. destruct (e_be E); apply solid_cons; reflexivity.
  - apply solid_cons; reflexivity.
  - apply solid_cons; reflexivity.
  - destruct (truthy _); [|discriminate H]. part H. injection H as <-. apply paren_solid.
  - apply undefined_solid.
  - apply undefined_solid.
Qed.
Lemma sqlref_data : forall E r v t, is_sql v = false -> sqlref E r v = Ok t ->
  solid t \/ exists s, v = VStr s /\ t = reference (e_be E) s.
Proof.
  intros E r v t S H. destruct v; try discriminate S; cbn [sqlref is_sql] in H; injection H as <-;
    solve [left; apply undefined_solid|left; apply z_dec_solid|right; eauto].
Qed.
(** V and R of an object print the object, possibly in brackets. *)
Lemma around : forall E v t, is_sql v = true -> (sqlvalue E (text E) v = Ok t \/ sqlref E (text E) v = Ok t) ->
  solid t \/ text E v = Ok t.
Proof.
  intros E v t S [H|H]; destruct v; try discriminate S; cbn [sqlvalue sqlref is_sql] in H;
    solve [right; exact H|left; part H; injection H as <-; apply paren_solid].
Qed.
Lemma blank_text : forall E v, blank v -> forall t, text E v = Ok t -> Forall whitespace t.
Proof.
  intros E v B. induction B; intros t T; rewrite text_unfold in T; cbn [str_body] in T.
  - injection T as <-. assumption.
  - cbn [sqlref] in T. injection T as <-. now apply reference_whitespace.
  - apply IHB. destruct B; exact T.
  - apply IHB. destruct B; exact T.
  - injection T as <-. constructor.
  - unfold conds_str in T. cbn [mapM] in T. destruct (text E x) as [y|] eqn:Y; [|discriminate]. injection T as <-. cbn. now apply IHB.
Qed.
Lemma blank_or_solid : forall E v, holds_objects v -> is_sql v = true -> forall t, text E v = Ok t -> blank v \/ solid t.
Proof.
  intros E v B. induction B as [ps A B IH|x B IH|x B IH|x X]; intros S t T.
  - destruct ps as [|a [|b ps]].
    + left. constructor.
    + rewrite text_unfold in T. cbn [str_body] in T. unfold conds_str in T. cbn [mapM] in T.
      destruct (text E a) as [y|] eqn:Y; [|discriminate]. injection T as <-. cbn.
      destruct (IH a (or_introl eq_refl) (A _ (or_introl eq_refl)) y Y) as [G|G]; [left; now constructor|now right].
    + right. rewrite text_unfold in T. cbn [str_body] in T. unfold conds_str in T. cbn [mapM] in T.
      destruct (text E a) as [x|]; [|discriminate]. destruct (text E b) as [y|]; [|discriminate]. cbn [bind] in T.
      destruct (mapM (text E) ps) as [z|]; [|discriminate]. injection T as <-. unfold parts_str. cbn [is_nilb].
      change (sjoin (lit " AND ") (x :: y :: z)) with (x ++ lit " AND " ++ sjoin (lit " AND ") (y :: z)). apply solid_r, solid_tail, solid_cons. reflexivity.
  - rewrite text_unfold in T. cbn [str_body] in T. destruct (is_sql x) eqn:Q.
    + destruct (around E x t Q (or_introl T)) as [G|G]; [now right|]. destruct (IH eq_refl t G) as [K|K]; [left; now constructor|now right].
    + right. eapply sqlvalue_data; eauto.
  - rewrite text_unfold in T. cbn [str_body] in T. destruct (is_sql x) eqn:Q.
    + destruct (around E x t Q (or_intror T)) as [G|G]; [now right|]. destruct (IH eq_refl t G) as [K|K]; [left; now constructor|now right].
    + destruct (sqlref_data _ _ _ _ Q T) as [G|[s [-> ->]]]; [now right|].
      destruct (reference_blank (e_be E) s) as [G|G]; [|now right]. left. apply blank_R_dots. now apply reference_dots in G.
  - destruct (plainly x) eqn:P; [right; now apply (plainly_solid E x)|].
    destruct x; try discriminate P; try discriminate S; try destruct X.
    rewrite text_unfold in T. injection T as <-. destruct (blank_dec s) as [G|G]; [left; now constructor|now right].
Qed.
Lemma blank_iff : forall E v t, holds_objects v -> is_sql v = true -> text E v = Ok t -> (Forall whitespace t <-> blank v).
Proof.
  intros E v t B S T. split; [|intros G; now apply (blank_text E v G)]. intros F.
  destruct (blank_or_solid E v B S t T) as [G|G]; [exact G|]. now apply solid_not_blank in G.
Qed.

(** ** Which calls add no condition *)
Lemma foldE_keeps : forall W k items ps ps', ps <> [] ->
  foldE (fun s it => let (c, v) := nth2 it in commit s (do x <- mk_condition k c v; append_unique (w_eq W) s x)) ps items = (ps', Ok tt) -> ps' <> [].
Proof.
  intros W k items ps ps' N H.
  assert (P : prefix ps (fst (foldE (fun s it => let (c, v) := nth2 it in commit s (do x <- mk_condition k c v; append_unique (w_eq W) s x)) ps items))).
  { apply foldE_inv; [apply prefix_refl|apply prefix_trans|]. intros s x _. destruct (nth2 x) as [c v].
    destruct (mk_condition k c v) as [y|]; cbn [bind commit]; [|apply prefix_refl].
    destruct (append_unique (w_eq W) s y) as [s'|] eqn:A; cbn; [|apply prefix_refl].
    apply append_unique_prefix in A as [->| ->]; [apply prefix_refl|apply prefix_snoc]. }
  rewrite H in P. cbn [fst] in P. destruct P as [x ->]. intros G. apply app_eq_nil in G as [-> _]. now apply N.
Qed.
Lemma fold_nothing : forall W k items,
  foldE (fun s it => let (c, v) := nth2 it in commit s (do x <- mk_condition k c v; append_unique (w_eq W) s x)) [] items = ([], Ok tt) <-> items = [].
Proof.
  intros W k items. split; [|intros ->; reflexivity]. destruct items as [|it items]; [reflexivity|]. intros H. exfalso.
  cbn [foldE] in H. destruct (nth2 it) as [c v]. destruct (mk_condition k c v) as [y|]; cbn [bind commit append_unique anyM] in H; [|discriminate].
  apply foldE_keeps in H; [now apply H|discriminate].
Qed.
Lemma mapM_nil : forall A B (f : A -> res B) l, mapM f l = Ok [] -> l = [].
Proof. intros A B f [|x l] H; [reflexivity|]. cbn in H. destruct (f x); [|discriminate]. cbn in H. destruct (mapM f l); discriminate. Qed.
Lemma oinsert_nil : forall A lt (x : A) l, oinsert lt x l <> [].
Proof. intros A lt x [|y l]; cbn; [discriminate|]. destruct (lt y x); discriminate. Qed.
Lemma sort_kwds_nil : forall k, sort_kwds k = [] -> k = [].
Proof.
  intros [|x k] H; [reflexivity|]. unfold sort_kwds in H. cbn [osort] in H. destruct (oinsert kw_lt x _) eqn:O; [|discriminate]. now apply oinsert_nil in O.
Qed.
Lemma sort_items_nil : forall W l, sort_items W l = Ok [] -> l = [].
Proof.
  intros W [|x [|y l]] H; [reflexivity|discriminate|]. exfalso. unfold sort_items in H.
  destruct (mapM _ _) as [ks|] eqn:K; [|discriminate]. cbn [bind] in H.
  destruct (existsb is_dkother ks || dk_dup ks); [discriminate|]. destruct (forallb is_dkstr ks || forallb is_dkint ks); [|discriminate].
  injection H as H. cbn in K. destruct (dict_key W (fst x)) as [k1|]; [|discriminate]. destruct (dict_key W (fst y)); [|discriminate]. cbn [bind] in K.
  destruct (mapM _ l); [|discriminate]. injection K as <-. cbn [combine] in H.
  cbn [osort] in H. destruct (oinsert dk_lt (k1, x) _) eqn:O; [|discriminate]. now apply oinsert_nil in O.
Qed.
Lemma parse_nothing : forall W args kwds, parse_args W pair_opts args kwds = Ok [] <-> asks_nothing args kwds.
Proof.
  intros W args kwds. unfold asks_nothing. split.
  - intros H. unfold parse_args in H. cbn [pair_opts p_min p_max p_dict p_list] in H.
    destruct args as [|a args].
    + left. split; [reflexivity|]. destruct kwds as [|k kwds]; [reflexivity|]. cbn [bind] in H.
      destruct (parse_items pair_opts (sort_kwds (k :: kwds))) as [x|] eqn:P; [|discriminate]. injection H as ->. apply mapM_nil in P.
      now apply sort_kwds_nil in P.
    + right. destruct args as [|a2 args].
      * cbn [List.length Nat.leb andb] in H. rewrite andb_false_r in H. cbn [andb] in H.
        destruct a; cbn [bind] in H;
          try (unfold parse_list in H; cbn [mapM parse_list_item pair_opts p_min Nat.eqb bind] in H; discriminate H).
        -- assert (G : forall l kk, (do first <- parse_list pair_opts l; do second <- kk; Ok (first ++ second)) = Ok [] -> l = [] /\ kk = Ok []).
           { intros l0 kk G. destruct (parse_list pair_opts l0) as [x|] eqn:X; [|discriminate]. destruct kk as [y|]; [|discriminate].
             injection G as G. apply app_eq_nil in G as [-> ->]. apply mapM_nil in X. now split. }
           assert (K : (match kwds with [] => Ok [] | _ :: _ => parse_items pair_opts (sort_kwds kwds) end) = Ok [] -> kwds = []).
           { intros K. destruct kwds as [|y kwds]; [reflexivity|]. apply mapM_nil in K. now apply sort_kwds_nil in K. }
           destruct k; try (unfold parse_list in H; cbn [mapM parse_list_item pair_opts p_min Nat.eqb bind] in H; discriminate H);
             apply G in H as [-> H]; apply K in H as ->; auto.
        -- destruct (sort_items W l) as [s|] eqn:S; [|discriminate]. cbn [bind] in H. destruct (parse_items pair_opts s) as [x|] eqn:P; [|discriminate].
           injection H as ->. apply mapM_nil in P. subst s. apply sort_items_nil in S. subst l. auto.
      * exfalso. destruct (_ && _ && _ && _) in H.
        -- destruct (create_batch pair_opts (a :: a2 :: args)) as [x|]; [|discriminate]. cbn [bind] in H.
           match type of H with bind ?k _ = _ => destruct k; [|discriminate H] end. discriminate H.
        -- assert (G : (do first <- parse_list pair_opts (a :: a2 :: args);
              do second <- match kwds with [] => Ok [] | _ :: _ => parse_items pair_opts (sort_kwds kwds) end; Ok (first ++ second)) = Ok []).
           { etransitivity; [|exact H]. destruct a; try destruct k; destruct kwds; reflexivity. }
           destruct (parse_list pair_opts (a :: a2 :: args)) as [x|] eqn:X; [|discriminate]. cbn [bind] in G.
           match type of G with bind ?k _ = _ => destruct k; [|discriminate G] end. injection G as G. apply app_eq_nil in G as [-> _].
           now apply mapM_nil in X.
  - intros [[-> ->]|[[-> ->]|[[-> ->]| ->]]]; reflexivity.
Qed.
Lemma fold_objects : forall W args ps ps', ps <> [] \/ args <> [] ->
  foldE (fun s x => commit s (append_unique (w_eq W) s x)) ps args = (ps', Ok tt) -> ps' <> [].
Proof.
  intros W args. induction args as [|a args IH]; intros ps ps' N H.
  - injection H as <-. destruct N as [N|N]; [exact N|congruence].
  - cbn [foldE] in H. destruct (append_unique (w_eq W) ps a) as [s|] eqn:A; [|discriminate]. cbn [commit] in H.
    apply (IH s ps'); [left|exact H]. destruct (append_unique_prefix _ _ _ _ _ A) as [->| ->]; [|now destruct ps].
    destruct ps; [|discriminate]. cbn in A. discriminate.
Qed.
Lemma no_condition : forall W k args kwds, conds_where W k [] args kwds = ([], Ok tt) <-> asks_nothing args kwds.
Proof.
  intros W k args kwds.
  assert (P : (match parse_args W pair_opts args kwds with
     | Err e => ([], Err e)
     | Ok items => foldE (fun s it => let (c, v) := nth2 it in commit s (do x <- mk_condition k c v; append_unique (w_eq W) s x)) [] items
     end) = ([], Ok tt) <-> asks_nothing args kwds).
  { rewrite <- (parse_nothing W). destruct (parse_args W pair_opts args kwds) as [items|e].
    - rewrite fold_nothing. split; [now intros ->|congruence].
    - split; discriminate. }
  assert (O : args <> [] -> foldE (fun s x => commit s (append_unique (w_eq W) s x)) [] args = ([], Ok tt) <-> False).
  { intros N. split; [|tauto]. intros H. apply fold_objects in H; [now apply H|now right]. }
  assert (A : forallb is_conds args = true -> args <> [] -> ~ asks_nothing args kwds).
  { intros F N [[-> _]|[[-> _]|[[-> _]| ->]]]; [now apply N| | |]; discriminate F. }
  unfold conds_where. destruct args as [|a [|a2 args]].
  - cbn [is_nilb negb andb]. exact P.
  - destruct kwds as [|y kwds].
    + destruct (is_sql a) eqn:S; [|exact P]. split; [discriminate|]. intros [[N _]|[[N _]|[[N _]|N]]]; try discriminate N; injection N as ->; discriminate S.
    + cbn [is_nilb negb andb]. destruct (forallb is_conds [a]) eqn:F; [|exact P]. rewrite O by discriminate. split; [tauto|]. apply A; [first [reflexivity|exact F]|discriminate].
  - cbn [is_nilb negb andb]. destruct (forallb is_conds (a :: a2 :: args)) eqn:F; [|exact P]. rewrite O by discriminate. split; [tauto|]. apply A; [first [reflexivity|exact F]|discriminate].
Qed.

(** ** Where the parts of a WHERE come from *)
Definition part_from (args : list val) (x : val) : Prop := (exists k c rk v, x = VCond k c rk v) \/ (In x args /\ is_sql x = true).
Lemma mk_condition_shape : forall k c v x, mk_condition k c v = Ok x -> exists c' rk w, x = VCond k c' rk w.
Proof.
  intros k c v x H. unfold mk_condition in H. destruct (negb _); [discriminate|]. destruct (negb _); [discriminate|].
  match type of H with bind ?r _ = _ => destruct r as [y|]; [|discriminate H] end. cbn [bind] in H. destruct y; try discriminate. injection H as <-. eauto.
Qed.
Lemma where_parts : forall W k ps args kwds x, In x (fst (conds_where W k ps args kwds)) -> In x ps \/ part_from args x.
Proof.
  intros W k ps args kwds x.
  assert (P : In x (fst (match parse_args W pair_opts args kwds with
     | Err e => (ps, Err e)
     | Ok items => foldE (fun s it => let (c, v) := nth2 it in commit s (do x <- mk_condition k c v; append_unique (w_eq W) s x)) ps items
     end)) -> In x ps \/ part_from args x).
  { destruct (parse_args W pair_opts args kwds) as [items|e]; [|now left].
    revert ps. induction items as [|it items IH]; intros ps I; [now left|]. cbn [foldE] in I. destruct (nth2 it) as [c v].
    destruct (mk_condition k c v) as [y|] eqn:Y; cbn [bind commit] in I; [|now left].
    destruct (append_unique (w_eq W) ps y) as [s|] eqn:A; cbn [commit] in I; [|now left].
    apply IH in I as [I|I]; [|now right]. apply append_unique_prefix in A as [->| ->]; [now left|].
    apply in_app_or in I as [I|[<-|[]]]; [now left|]. right. left. destruct (mk_condition_shape _ _ _ _ Y) as [c' [rk [w ->]]]. eauto. }
  assert (O : forall l, (forall y, In y l -> In y args) -> forallb is_conds l = true -> In x (fst (foldE (fun s x => commit s (append_unique (w_eq W) s x)) ps l)) -> In x ps \/ part_from args x).
  { clear P. intros l. revert ps. induction l as [|a l IH]; intros ps L F I; [now left|]. cbn [foldE] in I. cbn [forallb] in F. apply andb_true_iff in F as [F1 F2].
    destruct (append_unique (w_eq W) ps a) as [s|] eqn:A; cbn [commit] in I; [|now left].
    apply IH in I as [I|I]; [| |intros z Z; apply L; now right|exact F2]; [|now right].
    apply append_unique_prefix in A as [->| ->]; [now left|]. apply in_app_or in I as [I|[<-|[]]]; [now left|]. right. right. split; [apply L; now left|].
    destruct a; try discriminate F1; reflexivity. }
  unfold conds_where. destruct args as [|a [|a2 args]].
  - cbn [is_nilb negb andb]. exact P.
  - destruct kwds as [|y kwds].
    + destruct (is_sql a) eqn:S; [|exact P]. intros I. cbn [fst] in I. apply in_app_or in I as [I|[<-|[]]]; [now left|]. right. right. split; [now left|exact S].
    + cbn [is_nilb negb andb]. destruct (forallb is_conds [a]) eqn:F; [|exact P]. apply O; [auto|exact F].
  - cbn [is_nilb negb andb]. destruct (forallb is_conds (a :: a2 :: args)) eqn:F; [|exact P]. apply O; [auto|exact F].
Qed.
Lemma q_holds : forall W args kwds x, mk_Q W args kwds = Ok x -> (forall y, In y args -> holds_objects y) -> holds_objects x.
Proof.
  intros W args kwds x H A. unfold mk_Q in H. pose proof (where_parts W KWhere [] args kwds) as P.
  destruct (conds_where W KWhere [] args kwds) as [ps [u|e]]; [|discriminate]. injection H as <-. cbn [fst] in P.
  constructor; intros p I; apply P in I as [[]|[[k [c [rk [v ->]]]]|[I S]]]; try reflexivity; try exact S; [now constructor|now apply A].
Qed.

Lemma del_parts : forall H x, In x (d_where (calls del_step empty_delete H)) ->
  exists W a k, In (W, DWhere a k) H /\ part_from a x.
Proof.
  intros H. induction H as [|[W op] H IH] using rev_ind; intros x I; [destruct I|].
  rewrite calls_snoc in I. destruct (calls del_step empty_delete H) as [ig t r w al].
  assert (K : In x w -> exists W0 a k, In (W0, DWhere a k) (H ++ [(W, op)]) /\ part_from a x).
  { intros K0. destruct (IH x K0) as [W' [a [k [K1 K2]]]]. exists W', a, k. split; [apply in_or_app; now left|exact K2]. }
  destruct op; try (exact (K I)); unfold del_step in I.
  destruct (where_parts W KWhere w args kwds x) as [G|G]; [exact I|now apply K|].
  exists W, args, kwds. split; [apply in_or_app; right; now left|exact G].
Qed.
Lemma upd_parts : forall H x, In x (u_where (calls upd_step empty_update H)) ->
  exists W a k, In (W, UWhere a k) H /\ part_from a x.
Proof.
  intros H. induction H as [|[W op] H IH] using rev_ind; intros x I; [destruct I|].
  rewrite calls_snoc in I. destruct (calls upd_step empty_update H) as [ig t r w al].
  assert (K : In x w -> exists W0 a k, In (W0, UWhere a k) (H ++ [(W, op)]) /\ part_from a x).
  { intros K0. destruct (IH x K0) as [W' [a [k [K1 K2]]]]. exists W', a, k. split; [apply in_or_app; now left|exact K2]. }
  destruct op; try (exact (K I)); unfold upd_step in I.
  destruct (where_parts W KWhere w args kwds x) as [G|G]; [exact I|now apply K|].
  exists W, args, kwds. split; [apply in_or_app; right; now left|exact G].
Qed.
Lemma delete_blank : forall E H t, let q := calls del_step empty_delete H in
  (forall W a k y, In (W, DWhere a k) H -> In y a -> holds_objects y) ->
  ~ delete_confirmed (map snd H) -> text E (VDelete q) = Ok t ->
  exists pre c rest ws, text E (VConds (d_where q)) = Ok c /\ t = pre ++ lit " WHERE" ++ rest /\
    lit " " ++ c = rest ++ ws /\ Forall whitespace ws /\
    (Forall whitespace c <-> exists x, d_where q = [x] /\ blank x) /\
    (Forall whitespace c -> exists W a k x, In (W, DWhere a k) H /\ In x a /\ blank x).
Proof.
  intros E H t q A C T. pose proof (delete_guard E H) as G. cbn zeta in G. fold q in G. destruct G as [G1 [G2 G3]].
  assert (N : d_where q <> []) by (destruct (G1 t T) as [G|[G _]]; [now destruct C|exact G]).
  destruct (G3 N t T) as [pre [c [rest [ws [Tc [Tt [Tr Tw]]]]]]]. exists pre, c, rest, ws. do 4 (split; [assumption|]).
  assert (P : forall x, In x (d_where q) -> is_sql x = true /\ holds_objects x).
  { intros x I. destruct (del_parts H x I) as [W [a [k [J [[kk [cc [rk [v ->]]]]|[J1 J2]]]]]]; [split; [reflexivity|now constructor]|].
    split; [exact J2|]. exact (A W a k x J J1). }
  assert (B : Forall whitespace c <-> exists x, d_where q = [x] /\ blank x).
  { rewrite (blank_iff E _ c (ho_Q _ (fun x I => proj1 (P x I)) (fun x I => proj2 (P x I))) eq_refl Tc). split.
    - intros B. inversion B as [| | | |Z|x Bx Z]; [congruence|]. exists x. now split.
    - intros [x [-> Bx]]. now constructor. }
  split; [exact B|]. intros F. apply B in F as [x [Qx Bx]].
  destruct (del_parts H x) as [W [a [k [J [[kk [cc [rk [v ->]]]]|[J1 J2]]]]]]; [fold q; rewrite Qx; now left|inversion Bx|].
  exists W, a, k, x. auto.
Qed.
Lemma update_blank : forall E H t, let q := calls upd_step empty_update H in
  (forall W a k y, In (W, UWhere a k) H -> In y a -> holds_objects y) ->
  ~ update_confirmed (map snd H) -> text E (VUpdate q) = Ok t ->
  exists pre c rest ws, text E (VConds (u_where q)) = Ok c /\ t = pre ++ lit " WHERE" ++ rest /\
    lit " " ++ c = rest ++ ws /\ Forall whitespace ws /\
    (Forall whitespace c <-> exists x, u_where q = [x] /\ blank x) /\
    (Forall whitespace c -> exists W a k x, In (W, UWhere a k) H /\ In x a /\ blank x).
Proof.
  intros E H t q A C T. pose proof (update_guard E H) as G. cbn zeta in G. fold q in G. destruct G as [G1 [G2 G3]].
  assert (N : u_where q <> []) by (destruct (G1 t T) as [G|[G _]]; [now destruct C|exact G]).
  destruct (G3 N t T) as [pre [c [rest [ws [Tc [Tt [Tr Tw]]]]]]]. exists pre, c, rest, ws. do 4 (split; [assumption|]).
  assert (P : forall x, In x (u_where q) -> is_sql x = true /\ holds_objects x).
  { intros x I. destruct (upd_parts H x I) as [W [a [k [J [[kk [cc [rk [v ->]]]]|[J1 J2]]]]]]; [split; [reflexivity|now constructor]|].
    split; [exact J2|]. exact (A W a k x J J1). }
  assert (B : Forall whitespace c <-> exists x, u_where q = [x] /\ blank x).
  { rewrite (blank_iff E _ c (ho_Q _ (fun x I => proj1 (P x I)) (fun x I => proj2 (P x I))) eq_refl Tc). split.
    - intros B. inversion B as [| | | |Z|x Bx Z]; [congruence|]. exists x. now split.
    - intros [x [-> Bx]]. now constructor. }
  split; [exact B|]. intros F. apply B in F as [x [Qx Bx]].
  destruct (upd_parts H x) as [W [a [k [J [[kk [cc [rk [v ->]]]]|[J1 J2]]]]]]; [fold q; rewrite Qx; now left|inversion Bx|].
  exists W, a, k, x. auto.
Qed.
