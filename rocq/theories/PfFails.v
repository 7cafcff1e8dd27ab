(** Why str() raises: proofs. *)
From Coq Require Import Lia.
From Verif Require Import Base BaseFacts NumFmt Value Backend Eq Render RenderFacts SpecSame SpecFails PfErrors PfDedupe.
Open Scope N_scope.

(** ** Where an exception comes from *)
Lemma bind_err : forall A B (x : res A) (f : A -> res B) e, bind x f = Err e -> x = Err e \/ exists a, x = Ok a /\ f a = Err e.
Proof. intros A B [a|e'] f e H; [right; eauto|left]. injection H as <-. reflexivity. Qed.
Lemma bind_ok : forall A B (x : res A) (f : A -> res B) b, bind x f = Ok b -> exists a, x = Ok a /\ f a = Ok b.
Proof. intros A B [a|e'] f b H; [eauto|discriminate]. Qed.
Lemma mapM_err : forall A B (f : A -> res B) l e, mapM f l = Err e -> exists x, In x l /\ f x = Err e.
Proof.
  intros A B f l e. induction l as [|x l IH]; [discriminate|]. cbn [mapM]. intros H. apply bind_err in H. destruct H as [H|[b [_ H]]].
  - exists x. split; [now left|exact H].
  - apply bind_err in H. destruct H as [H|[c [_ H]]]; [|discriminate]. destruct (IH H) as [y [I Q]]. exists y. split; [now right|exact Q].
Qed.
Lemma mapM_all : forall A B (f : A -> res B) l r, mapM f l = Ok r -> forall x, In x l -> exists b, f x = Ok b.
Proof.
  intros A B f l. induction l as [|y l IH]; intros r H x I; [destruct I|]. cbn [mapM] in H. apply bind_ok in H. destruct H as [b [B1 H]].
  apply bind_ok in H. destruct H as [c [C H]]. destruct I as [<-|I]; [eauto|exact (IH _ C x I)].
Qed.
Lemma ctx_err : forall s t e, part_ctx s t = Err e -> t = Err e.
Proof. intros [] t e H; [|discriminate]. unfold part_ctx in H. apply bind_err in H. destruct H as [H|[? [_ H]]]; [exact H|discriminate]. Qed.
Lemma ctx_ok : forall t r, part_ctx true t = Ok r -> exists x, t = Ok x.
Proof. intros t r H. unfold part_ctx in H. apply bind_ok in H. destruct H as [x [H _]]. eauto. Qed.

(** Comparing raises what printing some compared object raises. *)
Lemma within_dec : forall (r : val -> res str) e v,
  (exists x, within x v /\ is_sql x = true /\ r x = Err e) \/ (forall x, within x v -> is_sql x = true -> r x <> Err e).
Proof.
  intros r e v. induction v as [v IH] using val_ind_children.
  assert (S : is_sql v = true /\ r v = Err e \/ (is_sql v = true -> r v <> Err e)).
  { destruct (is_sql v); [|right; discriminate]. destruct (r v) as [t|e']; [right; discriminate|].
    assert (D : {e' = e} + {e' <> e}) by decide equality. destruct D as [->|N]; [left; split; reflexivity|right; congruence]. }
  destruct S as [[S1 S2]|S]; [left; exists v; split; [constructor|split; assumption]|].
  destruct (textual_eq v) eqn:T; [right; intros x W; inversion W; subst; [assumption|congruence]|].
  assert (L : forall l, (forall x, In x l -> In x (children v)) ->
    (exists c x, In c l /\ within x c /\ is_sql x = true /\ r x = Err e) \/ (forall c x, In c l -> within x c -> is_sql x = true -> r x <> Err e)).
  { induction l as [|c l IL]; intros Q; [right; intros c x []|]. destruct (IH c (Q c (or_introl eq_refl))) as [[x H]|H].
    - left. exists c, x. split; [now left|exact H].
    - destruct IL as [[d [x [I X]]]|N]; [intros x I; apply Q; now right| |].
      + left. exists d, x. split; [now right|exact X].
      + right. intros d x [<-|I]; [apply H|now apply N]. }
  destruct (L (children v) (fun x I => I)) as [[c [x [I [W [X Y]]]]]|N].
  - left. exists x. split; [|split; assumption]. exact (wi_child _ _ _ T I W).
  - right. intros x W. inversion W as [?|? c ? ? I W']; subst; [assumption|]. exact (N c x I W').
Qed.
Lemma calm_within : forall r r' a b, (forall v, within v a \/ within v b -> is_sql v = true -> r v = r' v) -> pyeq r a b = pyeq r' a b.
Proof.
  intros r r' a. induction a as [a H] using val_ind_children. intros b HR.
  assert (Ra : is_sql a = true -> r a = r' a) by (apply HR; left; constructor). assert (Rb : is_sql b = true -> r b = r' b) by (apply HR; right; constructor).
  destruct (textual_eq a) eqn:Xa.
  { clear H HR. destruct a; try discriminate Xa; cbn [pyeq textual_eq]; rewrite (Ra eq_refl); destruct b; cbn [is_sql]; try reflexivity; rewrite (Rb eq_refl); reflexivity. }
  destruct (textual_eq b) eqn:Xb.
  { clear H HR Ra. destruct a; try discriminate Xa; clear Xa; cbn [pyeq textual_eq]; destruct b; try discriminate Xb; try reflexivity; try (rewrite (Rb eq_refl); reflexivity);
      destruct k; reflexivity. }
  assert (IH : forall x y, In x (children a) -> In y (children b) -> pyeq r x y = pyeq r' x y).
  { intros x y Hx Hy. apply H; [exact Hx|]. intros v [W|W] S; apply HR; try exact S; [left; exact (wi_child _ _ _ Xa Hx W)|right; exact (wi_child _ _ _ Xb Hy W)]. }
  clear H HR Ra Rb.
  destruct a; cbn [textual_eq] in Xa; try discriminate; cbn [pyeq textual_eq];
    try (destruct b; cbn [textual_eq] in Xb; try discriminate; reflexivity).
  - destruct b; try reflexivity. cbn [children] in IH.
    rewrite (list_eq_ext (pyeq r) (pyeq r') l l0) by auto.
    destruct (seqk_eqb k k0); [reflexivity|]. destruct (is_setk k && is_setk k0); [|reflexivity].
    destruct (Nat.eqb (Datatypes.length l) (Datatypes.length l0)); [|reflexivity].
    apply allM_ext. intros x Hx. apply anyM_ext. intros y Hy. now apply IH.
  - destruct b; try reflexivity. cbn [children] in IH.
    destruct (Nat.eqb (Datatypes.length l) (Datatypes.length l0)); [|reflexivity].
    apply allM_ext. intros [k v] Hx. apply anyM_ext. intros [k' v'] Hy.
    rewrite (IH k k'), (IH v v'); try reflexivity; apply in_flat_map; eexists; split; eauto; simpl; auto.
  - destruct b; try reflexivity. now rewrite (IH a b) by (simpl; auto).
  - destruct b; destruct k; try reflexivity; destruct k0; try reflexivity.
    + rewrite (IH a1 b1), (IH a2 b2) by (simpl; auto). reflexivity.
    + rewrite (IH a1 b1), (IH a2 b2), (IH a2 b1), (IH a1 b2) by (simpl; auto). reflexivity.
  - destruct b; try reflexivity. now rewrite (IH a1 b1), (IH a2 b2) by (simpl; auto).
  - destruct b; try reflexivity. apply list_eq_ext. exact IH.
  - destruct b; try reflexivity. apply sel_eq_ext. exact IH.
  - destruct b; try reflexivity. now rewrite (IH a1 b1), (IH a2 b2) by (simpl; auto).
  - destruct b; try reflexivity. apply ins_eq_ext. exact IH.
  - destruct b; try reflexivity. apply upd_eq_ext. exact IH.
  - destruct b; try reflexivity. apply del_eq_ext. exact IH.
Qed.
Lemma compare_err : forall r a b e, pyeq r a b = Err e -> exists x, (within x a \/ within x b) /\ is_sql x = true /\ r x = Err e.
Proof.
  intros r a b e H.
  destruct (within_dec r e a) as [[x [W [S X]]]|Na]; [exists x; auto|]. destruct (within_dec r e b) as [[x [W [S X]]]|Nb]; [exists x; auto|].
  exfalso. assert (D : forall e', {e' = e} + {e' <> e}) by (intros; decide equality).
  set (r' := fun v => match r v with Ok t => Ok t | Err e' => if D e' then Ok [] else Err e' end : res str).
  rewrite (calm_within r r') in H.
  - refine (tot_pyeq (fun e' => e' <> e) r' _ a b e H eq_refl). intros v e'. unfold r'. destruct (r v) as [t|e2]; [discriminate|].
    destruct (D e2); [discriminate|congruence].
  - intros v W S. unfold r'. destruct (r v) as [t|e2] eqn:R; [reflexivity|]. destruct (D e2) as [->|N]; [|reflexivity].
    exfalso. destruct W as [W|W]; [exact (Na v W S R)|exact (Nb v W S R)].
Qed.

(** ** Joins *)
Lemma rand_err : forall x y e, rand x y = Err e -> x = Err e \/ y = Err e.
Proof. intros [[]|e'] y e H; [now right|discriminate|now left]. Qed.
Lemma list_eq_err : forall A B (f : A -> B -> res bool) l m e, list_eq f l m = Err e -> exists x y, In x l /\ In y m /\ f x y = Err e.
Proof.
  intros A B f l m e. unfold list_eq. destruct (Nat.eqb _ _); [|discriminate]. revert m. induction l as [|x l IH]; intros [|y m] H; try discriminate H.
  cbn [all2] in H. change (rand (f x y) (all2 f l m) = Err e) in H. apply rand_err in H. destruct H as [H|H].
  - exists x, y. split; [now left|split; [now left|exact H]].
  - destruct (IH m H) as [a [b [I [J Q]]]]. exists a, b. split; [now right|split; [now right|exact Q]].
Qed.
Lemma same_err : forall r h j e, same_join r h j = Err e -> exists k x y, (k = h \/ k = j) /\ In x (join_vals k) /\ within y x /\ is_sql y = true /\ r y = Err e.
Proof.
  intros r h j e H. unfold same_join in H. apply rand_err in H.
  assert (Q : exists a b, In a (join_vals h) /\ In b (join_vals j) /\ pyeq r a b = Err e).
  { destruct H as [H|H]; [apply rand_err in H; destruct H as [H|H]|].
    - exists (j_name h), (j_name j). split; [now left|split; [now left|exact H]].
    - exists (j_alias h), (j_alias j). split; [right; now left|split; [right; now left|exact H]].
    - apply list_eq_err in H. destruct H as [a [b [I [J Q]]]]. exists a, b. split; [right; now right|split; [right; now right|exact Q]]. }
  destruct Q as [a [b [I [J Q]]]]. apply compare_err in Q. destruct Q as [y [[W|W] [S R]]].
  - exists h, a, y. auto.
  - exists j, b, y. auto.
Qed.
Definition members (g : jgroup) : list (join val) := fst g :: snd g.
Lemma add_err : forall r j gs e, group_add r j gs = Err e -> exists g, In g gs /\ same_join r (fst g) j = Err e.
Proof.
  intros r j gs e. induction gs as [|[h t] gs IH]; cbn [group_add]; intros H; [discriminate|].
  destruct (same_join r h j) as [[]|e'] eqn:S; [discriminate| |].
  - destruct (group_add r j gs) as [gs'|e']; [discriminate|]. injection H as <-. destruct (IH eq_refl) as [g [I Q]]. exists g. split; [now right|exact Q].
  - injection H as <-. exists (h, t). split; [now left|exact S].
Qed.
Lemma add_members : forall r j gs gs', group_add r j gs = Ok gs' -> forall g k, In g gs' -> In k (members g) -> k = j \/ exists g0, In g0 gs /\ In k (members g0).
Proof.
  intros r j gs. induction gs as [|[h t] gs IH]; cbn [group_add]; intros gs' H g k I M.
  - injection H as <-. destruct I as [<-|[]]. destruct M as [<-|[]]. now left.
  - destruct (same_join r h j) as [[]|e'] eqn:S; [| |discriminate].
    + injection H as <-. destruct I as [<-|I].
      * destruct M as [<-|M]; [right; exists (h, t); split; [now left|now left]|]. cbn [snd] in M. apply in_app_or in M.
        destruct M as [M|[<-|[]]]; [right; exists (h, t); split; [now left|now right]|now left].
      * right. exists g. split; [now right|exact M].
    + destruct (group_add r j gs) as [gs1|e'] eqn:A; [|discriminate]. injection H as <-. destruct I as [<-|I].
      * right. exists (h, t). split; [now left|exact M].
      * destruct (IH gs1 eq_refl g k I M) as [->|[g0 [J N]]]; [now left|right; exists g0; split; [now right|exact N]].
Qed.
Lemma joins_err : forall r js gs e, group_joins r js gs = Err e -> exists h j, same_join r h j = Err e /\
  (In h js \/ exists g, In g gs /\ In h (members g)) /\ (In j js).
Proof.
  intros r js. induction js as [|j js IH]; intros gs e H; [discriminate|]. cbn [group_joins] in H.
  destruct (group_add r j gs) as [gs'|e'] eqn:A.
  - destruct (IH gs' e H) as [h [k [S [K J]]]]. exists h, k. split; [exact S|]. split; [|now right]. destruct K as [K|[g [I M]]]; [left; now right|].
    destruct (add_members r j gs gs' A g h I M) as [->|G]; [left; now left|now right].
  - injection H as <-. destruct (add_err _ _ _ _ A) as [g [I S]]. exists (fst g), j. split; [exact S|]. split; [right; exists g; split; [exact I|now left]|now left].
Qed.
Lemma joins_members : forall r js gs gs', group_joins r js gs = Ok gs' -> forall g k, In g gs' -> In k (members g) ->
  In k js \/ exists g0, In g0 gs /\ In k (members g0).
Proof.
  intros r js. induction js as [|j js IH]; intros gs gs' H g k I M; cbn [group_joins] in H.
  - injection H as <-. right. eauto.
  - destruct (group_add r j gs) as [gs1|e'] eqn:A; [|discriminate]. destruct (IH gs1 gs' H g k I M) as [K|[g0 [J N]]]; [left; now right|].
    destruct (add_members r j gs gs1 A g0 k J N) as [->|G]; [left; now left|now right].
Qed.
Lemma settle_members : forall g k, In k (settle_group g) -> exists k0, In k0 (members g) /\ join_shown k = join_shown k0.
Proof.
  intros [h t] k. cbn [settle_group members fst snd]. destruct (_ && existsb _ _); [|destruct (_ && forallb _ _)].
  - intros [<-|[]]. exists h. split; [now left|reflexivity].
  - intros [<-|[]]. exists h. split; [now left|reflexivity].
  - intros I. exists k. split; [exact I|reflexivity].
Qed.
Lemma minimize_err : forall r js e, minimize r js = Err e -> exists h j, In h js /\ In j js /\ same_join r h j = Err e.
Proof.
  intros r js e H. unfold minimize in H. apply bind_err in H. destruct H as [H|[? [_ H]]]; [|discriminate].
  apply joins_err in H. destruct H as [h [j [S [[K|[g [[] _]]] J]]]]. eauto.
Qed.
Lemma minimize_members : forall r js js', minimize r js = Ok js' -> forall k, In k js' -> exists j, In j js /\ join_shown k = join_shown j.
Proof.
  intros r js js' H k I. unfold minimize in H. apply bind_ok in H. destruct H as [gs [G H]]. injection H as <-.
  apply in_flat_map in I. destruct I as [g [I K]]. apply settle_members in K. destruct K as [k0 [M ->]].
  destruct (joins_members r js [] gs G g k0 I M) as [J|[g0 [[] _]]]. eauto.
Qed.
(** A join that repeats no earlier one stays. *)
Lemma add_head : forall r j gs gs', group_add r j gs = Ok gs' -> (forall g, In g gs -> exists g', In g' gs' /\ fst g' = fst g) /\
  ((forall g, In g gs -> same_join r (fst g) j <> Ok true) -> exists g', In g' gs' /\ fst g' = j).
Proof.
  intros r j gs. induction gs as [|[h t] gs IH]; cbn [group_add]; intros gs' H.
  - injection H as <-. split; [intros g []|]. intros _. exists (j, []). split; [now left|reflexivity].
  - destruct (same_join r h j) as [[]|e'] eqn:S; [| |discriminate].
    + injection H as <-. split.
      * intros g [<-|I]; [exists (h, t ++ [j]); split; [now left|reflexivity]|exists g; split; [now right|reflexivity]].
      * intros N. exfalso. exact (N (h, t) (or_introl eq_refl) S).
    + destruct (group_add r j gs) as [gs1|e'] eqn:A; [|discriminate]. injection H as <-. destruct (IH gs1 eq_refl) as [K1 K2]. split.
      * intros g [<-|I]; [exists (h, t); split; [now left|reflexivity]|]. destruct (K1 g I) as [g' [J Q]]. exists g'. split; [now right|exact Q].
      * intros N. destruct K2 as [g' [J Q]]; [intros g I; apply N; now right|]. exists g'. split; [now right|exact Q].
Qed.
Lemma joins_heads : forall r js gs gs', group_joins r js gs = Ok gs' -> forall g, In g gs -> exists g', In g' gs' /\ fst g' = fst g.
Proof.
  intros r js. induction js as [|j js IH]; intros gs gs' H g I; cbn [group_joins] in H; [injection H as <-; eauto|].
  destruct (group_add r j gs) as [gs1|e'] eqn:A; [|discriminate]. destruct (proj1 (add_head _ _ _ _ A) g I) as [g1 [J Q]].
  destruct (IH gs1 gs' H g1 J) as [g2 [K Q2]]. exists g2. split; [exact K|congruence].
Qed.
Lemma joins_fresh : forall r before j after gs gs', group_joins r (before ++ j :: after) gs = Ok gs' ->
  (forall h, In h before -> same_join r h j <> Ok true) -> (forall g, In g gs -> same_join r (fst g) j <> Ok true) ->
  exists g', In g' gs' /\ fst g' = j.
Proof.
  intros r before. induction before as [|b before IH]; intros j after gs gs' H N M; cbn [app group_joins] in H.
  - destruct (group_add r j gs) as [gs1|e'] eqn:A; [|discriminate]. destruct (proj2 (add_head _ _ _ _ A) M) as [g [I Q]].
    destruct (joins_heads _ _ _ _ H g I) as [g' [J Q']]. exists g'. split; [exact J|congruence].
  - destruct (group_add r b gs) as [gs1|e'] eqn:A; [|discriminate]. apply (IH j after gs1 gs' H).
    + intros h I. apply N. now right.
    + intros g I. destruct (add_members _ _ _ _ A g (fst g) I (or_introl eq_refl)) as [Q|[g0 [J Q]]]; [rewrite Q; apply N; now left|].
      clear - A I M N. revert gs1 A I. induction gs as [|[h t] gs IG]; cbn [group_add]; intros gs1 A I.
      * injection A as <-. destruct I as [<-|[]]. apply N. now left.
      * destruct (same_join r h b) as [[]|e']; [| |discriminate].
        -- injection A as <-. destruct I as [<-|I]; [exact (M (h, t) (or_introl eq_refl))|apply M; now right].
        -- destruct (group_add r b gs) as [gs2|e']; [|discriminate]. injection A as <-. destruct I as [<-|I]; [exact (M (h, t) (or_introl eq_refl))|].
           apply (IG (fun g0 J => M g0 (or_intror J)) gs2 eq_refl I).
Qed.
Lemma settle_head : forall g, exists k, In k (settle_group g) /\ join_shown k = join_shown (fst g).
Proof.
  intros [h t]. cbn [settle_group fst]. destruct (_ && existsb _ _); [|destruct (_ && forallb _ _)]; eexists; (split; [now left|reflexivity]).
Qed.
Lemma same_true : forall E h j, same_join (text E) h j = Ok true -> repeats E h j.
Proof.
  intros E h j H. unfold same_join in H. apply rand_true in H. destruct H as [H L]. apply rand_true in H. destruct H as [A B].
  split; [exact A|split; [exact B|]]. unfold list_eq in L. destruct (Nat.eqb _ _) eqn:Q; [|discriminate]. apply Nat.eqb_eq in Q. revert Q L.
  generalize (j_ons h) (j_ons j). induction l as [|x l IH]; intros [|y m] Q L; try discriminate Q; [constructor|].
  cbn [all2] in L. change (rand (pyeq (text E) x y) (all2 (pyeq (text E)) l m) = Ok true) in L. apply rand_true in L. destruct L as [L1 L2].
  constructor; [exact L1|]. apply IH; [|exact L2]. now injection Q.
Qed.
Lemma minimize_fresh : forall E before j after js', minimize (text E) (before ++ j :: after) = Ok js' ->
  (forall h, In h before -> ~ repeats E h j) -> exists k, In k js' /\ join_shown k = join_shown j.
Proof.
  intros E before j after js' H N. unfold minimize in H. apply bind_ok in H. destruct H as [gs [G H]]. injection H as <-.
  destruct (joins_fresh _ _ _ _ _ _ G) as [g [I Q]]; [intros h J S; exact (N h J (same_true _ _ _ S))|intros g []|].
  destruct (settle_head g) as [k [K1 K2]]. exists k. split; [apply in_flat_map; eauto|congruence].
Qed.

(** ** What raises is one of the causes *)
Definition found (E : env) (l : list (way * val)) (e : exn) : Prop := exists w x, In (w, x) l /\ printed E w x = Err e.
Lemma found_in : forall E l m e, found E l e -> (forall p, In p l -> In p m) -> found E m e.
Proof. intros E l m e [w [x [I P]]] H. exists w, x. split; [now apply H|exact P]. Qed.
Lemma found_flat : forall E A (h : A -> list (way * val)) l a e, In a l -> found E (h a) e -> found E (flat_map h l) e.
Proof. intros E A h l a e I F. apply (found_in _ _ _ _ F). intros p J. apply in_flat_map. eauto. Qed.
Lemma aliased_found : forall E n a e, aliased_str E (text E) (n, a) = Err e -> found E (named n a) e.
Proof.
  intros E n a e H. cbn [aliased_str] in H. unfold named. destruct (truthy a).
  - apply bind_err in H. destruct H as [H|[? [_ H]]]; [exists AsName, n; split; [now left|exact H]|].
    apply bind_err in H. destruct H as [H|[? [_ H]]]; [exists AsName, a; split; [right; now left|exact H]|discriminate].
  - exists AsName, n. split; [now left|exact H].
Qed.
Lemma columns_found : forall E cols e, columns_str E (text E) cols = Err e -> found E (names cols) e.
Proof.
  intros E cols e H. unfold columns_str in H. apply bind_err in H. destruct H as [H|[? [_ H]]]; [|discriminate].
  apply mapM_err in H. destruct H as [[n a] [I H]]. apply (found_flat _ _ _ _ (n, a)); [exact I|]. now apply aliased_found.
Qed.
Lemma orders_found : forall E kw os e, orders_str E (text E) kw os = Err e -> found E (sorted os) e.
Proof.
  intros E kw os e H. unfold orders_str in H. apply bind_err in H. destruct H as [H|[? [_ H]]]; [|discriminate].
  apply mapM_err in H. destruct H as [[c d] [I H]]. exists AsName, c. split; [apply (in_map (fun p : val * sortd => (AsName, fst p)) _ _ I)|].
  destruct d; cbn [order_str] in H; [exact H|]. apply bind_err in H. destruct H as [H|[? [_ H]]]; [exact H|discriminate].
Qed.
Lemma parts_found : forall E ps e, mapM (text E) ps = Err e -> found E (parts ps) e.
Proof. intros E ps e H. apply mapM_err in H. destruct H as [x [I H]]. exists Itself, x. split; [now apply (in_map (fun y => (Itself, y)))|exact H]. Qed.
Lemma conds_found : forall E kw ps e, conds_str (text E) kw ps = Err e -> found E (parts ps) e.
Proof. intros E kw ps e H. unfold conds_str in H. apply bind_err in H. destruct H as [H|[? [_ H]]]; [now apply parts_found|discriminate]. Qed.
Lemma values_found : forall E kw ps e, values_str (text E) kw ps = Err e -> found E (parts ps) e.
Proof. intros E kw ps e H. unfold values_str in H. apply bind_err in H. destruct H as [H|[? [_ H]]]; [now apply parts_found|discriminate]. Qed.
(** In the joins: an object that is printed, or one that is compared. *)
Definition found_joins (E : env) (ts : list (table val)) (e : exn) : Prop :=
  exists t j, In t ts /\ In j (tb_joins t) /\
    (found E (join_shown j) e \/ exists x y, In x (join_vals j) /\ within y x /\ is_sql y = true /\ text E y = Err e).
Lemma tables_found : forall E kw ts e, tables_str E (text E) kw ts = Err e -> found E (tables_shown ts) e \/ found_joins E ts e.
Proof.
  intros E kw ts e H. unfold tables_str in H. apply bind_err in H. destruct H as [H|[? [_ H]]]; [|discriminate].
  apply mapM_err in H. destruct H as [t [I H]]. unfold table_str in H. apply bind_err in H. destruct H as [H|[n [_ H]]].
  - left. apply (found_flat _ _ _ _ t); [exact I|]. now apply aliased_found.
  - right. destruct (is_nilb (tb_joins t)); [discriminate|]. apply bind_err in H. destruct H as [H|[js [M H]]].
    + apply minimize_err in H. destruct H as [h [j [J1 [J2 S]]]]. apply same_err in S. destruct S as [k [x [y [[->| ->] [X [W [S R]]]]]]].
      * exists t, h. split; [exact I|split; [exact J1|]]. right. eauto 7.
      * exists t, j. split; [exact I|split; [exact J2|]]. right. eauto 7.
    + apply bind_err in H. destruct H as [H|[? [_ H]]]; [|discriminate]. apply mapM_err in H. destruct H as [k [K H]].
      destruct (minimize_members _ _ _ M k K) as [j [J Q]]. exists t, j. split; [exact I|split; [exact J|]]. left. rewrite <- Q.
      unfold join_str in H. apply bind_err in H. destruct H as [H|[? [_ H]]].
      * destruct (is_nilb _); [discriminate|]. apply bind_err in H. destruct H as [H|[? [_ H]]]; [|discriminate].
        apply conds_found in H. apply (found_in _ _ _ _ H). intros p P. apply in_or_app. now right.
      * apply bind_err in H. destruct H as [H|[? [_ H]]]; [|discriminate]. apply aliased_found in H. apply (found_in _ _ _ _ H).
        intros p P. apply in_or_app. now left.
Qed.
Lemma opt_found : forall E kw o e, out_opt E (text E) kw o = Err e -> found E (map (pair AsValue) (opt_vals o)) e.
Proof.
  intros E kw [v|] e H; [|discriminate]. cbn [out_opt] in H. apply bind_err in H. destruct H as [H|[? [_ H]]]; [|discriminate].
  exists AsValue, v. split; [now left|exact H].
Qed.
Lemma out_found : forall E o e, out_set o = true -> out_str E (text E) o = Err e -> found E (outfile_of o) e.
Proof.
  intros E [[f|] a b c] e S H; [|discriminate S]. clear S. unfold outfile_of. cbn [o_file]. unfold out_vals. cbn [o_file o_fields o_lines o_encl].
  rewrite !map_app. unfold out_str in H. cbn [o_file o_fields o_lines o_encl] in H.
  apply bind_err in H. destruct H as [H|[? [_ H]]]; [apply opt_found in H; apply (found_in _ _ _ _ H); intros p P; rewrite !in_app_iff; tauto|].
  apply bind_err in H. destruct H as [H|[? [_ H]]]; [apply opt_found in H; apply (found_in _ _ _ _ H); intros p P; rewrite !in_app_iff; tauto|].
  apply bind_err in H. destruct H as [H|[? [_ H]]]; [apply opt_found in H; apply (found_in _ _ _ _ H); intros p P; rewrite !in_app_iff; tauto|].
  apply bind_err in H. destruct H as [H|[? [_ H]]]; [apply opt_found in H; apply (found_in _ _ _ _ H); intros p P; rewrite !in_app_iff; tauto|].
  discriminate.
Qed.
Lemma argument_found : forall E x e, expr_str E (text E) x = Err e -> found E (argument x) e.
Proof.
  intros E x e H. assert (D : sqlref E (text E) x = Err e -> found E [(AsName, x)] e) by (intros R; exists AsName, x; split; [now left|exact R]).
  destruct x; try exact (D H). destruct k; try exact (D H); cbn [expr_str argument] in *;
    (apply bind_err in H; destruct H as [H|[? [_ H]]]; [|discriminate]; apply mapM_err in H; destruct H as [y [I H]];
     exists AsName, y; split; [now apply in_map|exact H]).
Qed.
Lemma plain_found : forall (E : env) c rk v e, fmt_plain c rk v = Err e -> c = Err e \/ v = Err e.
Proof.
  intros E c rk v e H. unfold fmt_plain in H. apply bind_err in H. destruct H as [H|[? [_ H]]]; [now left|].
  apply bind_err in H. destruct H as [H|[? [_ H]]]; [now right|discriminate].
Qed.
Lemma cond_found : forall E k c rk v e, fmt_condition (sqlref E (text E) c) rk (transformer E (text E) k v) v = Err e ->
  found E ((AsName, c) :: operand k rk v) e.
Proof.
  intros E k c rk v e H.
  assert (C : sqlref E (text E) c = Err e -> found E ((AsName, c) :: operand k rk v) e) by (intros Q; exists AsName, c; split; [now left|exact Q]).
  assert (G : forall w x, In (w, x) (operand k rk v) -> printed E w x = Err e -> found E ((AsName, c) :: operand k rk v) e).
  { intros w x I P. exists w, x. split; [now right|exact P]. }
  assert (N : (forall ks l, v <> VSeq ks l) \/ (rk <> RIn /\ rk <> RNotIn) -> fmt_plain (sqlref E (text E) c) rk (transformer E (text E) k v v) = Err e ->
    found E ((AsName, c) :: operand k rk v) e).
  { intros D F. apply plain_found in F; [|exact E]. destruct F as [F|F]; [exact (C F)|].
    destruct k; cbn [transformer] in F.
    - apply (G AsValue v); [|exact F]. destruct D as [D|[D1 D2]]; destruct rk; try (now left); try congruence; destruct v; try (now left); now destruct (D k l).
    - destruct v as [| | | | |s| | | |ks l| | | | | | | | | | | | | | | | | | | | |];
        try (match goal with |- found E (_ :: operand KOn rk ?x) e => apply (G AsValue x); [destruct rk; now left|exact F] end).
      + apply (G AsName (VStr s)); [destruct rk; now left|exact F].
      + apply (G AsValue (VSeq ks l)); [|exact F]. destruct D as [D|[D1 D2]]; [now destruct (D ks l)|]. destruct rk; try (now left); congruence. }
  assert (S : forall ks l, v = VSeq ks l -> rk = RIn \/ rk = RNotIn -> found E ((AsName, c) :: operand k rk v) e).
  { intros ks l -> R. assert (T : transformer E (text E) k (VSeq ks l) = sqlvalue E (text E)) by (now destruct k). rewrite T in H.
    assert (O : operand k rk (VSeq ks l) = if existsb is_none l && is_nilb (filter (fun x => negb (is_none x)) l) then [] else [(AsValue, VSeq KList (filter (fun x => negb (is_none x)) l))])
      by (destruct R as [-> | ->]; now destruct k). rewrite O in *.
    assert (F : fmt_in (sqlref E (text E) c) rk (sqlvalue E (text E)) (VSeq ks l) = Err e) by (destruct R as [-> | ->]; exact H).
    unfold fmt_in in F. cbv zeta in F. destruct (existsb is_none l); cbn [andb] in *; [destruct (is_nilb (filter _ l))|].
    - apply C. destruct rk; apply bind_err in F; (destruct F as [F|[? [_ F]]]; [exact F|discriminate]).
    - destruct rk; apply bind_err in F; (destruct F as [F|[? [_ F]]]; [exact (C F)|]); apply bind_err in F;
        (destruct F as [F|[? [_ F]]]; [|discriminate]); apply (G AsValue _ (or_introl eq_refl) F).
    - apply plain_found in F; [|exact E]. destruct F as [F|F]; [exact (C F)|]. apply (G AsValue _ (or_introl eq_refl) F). }
  unfold fmt_condition in H. destruct rk; try (apply N; [right; split; discriminate|exact H]).
  - destruct v; try (apply N; [left; discriminate|exact H]). eapply S; [reflexivity|now left].
  - destruct v; try (apply N; [left; discriminate|exact H]). eapply S; [reflexivity|now right].
Qed.
Lemma row_split : forall row c, (row_value row c = VNone /\ forall u, ~ In (VValue (VStr c) u) row) \/
  exists before after, row = before ++ VValue (VStr c) (row_value row c) :: after /\ forall u, ~ In (VValue (VStr c) u) after.
Proof.
  intros row c. induction row as [|p row IH] using rev_ind; [left; split; [reflexivity|intros u []]|].
  assert (R : row_value (row ++ [p]) c = match p with VValue (VStr c') v => if seqb c c' then v else row_value row c | _ => row_value row c end)
    by (unfold row_value; now rewrite fold_left_app).
  assert (K : (forall u, p <> VValue (VStr c) u) -> row_value (row ++ [p]) c = row_value row c ->
    (row_value (row ++ [p]) c = VNone /\ forall u, ~ In (VValue (VStr c) u) (row ++ [p])) \/
    exists before after, row ++ [p] = before ++ VValue (VStr c) (row_value (row ++ [p]) c) :: after /\ forall u, ~ In (VValue (VStr c) u) after).
  { intros N Q. rewrite Q. destruct IH as [[V NI]|[before [after [Q2 NI]]]].
    - left. split; [exact V|]. intros u I. apply in_app_or in I. destruct I as [I|[I|[]]]; [exact (NI u I)|exact (N u I)].
    - right. exists before, (after ++ [p]). split; [rewrite Q2 at 1; now rewrite <- app_assoc|].
      intros u I. apply in_app_or in I. destruct I as [I|[I|[]]]; [exact (NI u I)|exact (N u I)]. }
  destruct p as [| | | | | | | | | | | | | | | | |c' v| | | | | | | | | | | | |]; try (apply K; [discriminate|exact R]).
  destruct c' as [| | | | |s| | | | | | | | | | | | | | | | | | | | | | | | |]; try (apply K; [discriminate|exact R]).
  destruct (seqb c s) eqn:S.
  - apply seqb_eq in S. subst s. right. exists row, []. rewrite R. split; [reflexivity|intros u []].
  - apply K; [|exact R]. intros u Q. injection Q as -> ->. assert (seqb c c = true) by (now apply seqb_eq). congruence.
Qed.
Lemma column_err : forall p e, part_column p = Err e <-> no_column p e.
Proof.
  intros p e. destruct p as [| | | | | | | | | | | | | | | | |c' v| | | | | | | | | | | | |]; cbn [part_column no_column];
    try (split; intros H; [now injection H as <-|now subst]).
  destruct c'; (split; intros H; [try discriminate H; now injection H as <-|try destruct H; now subst]).
Qed.

Lemma named_child : forall n a w x, In (w, x) (named n a) -> x = n \/ x = a.
Proof. intros n a w x [H|H]; [injection H as <- <-; now left|]. destruct (truthy a); [|destruct H]. destruct H as [H|[]]. injection H as <- <-. now right. Qed.
Lemma names_child : forall l w x, In (w, x) (names l) -> In x (flat_map pair_vals l).
Proof.
  intros l w x I. apply in_flat_map in I. destruct I as [[n a] [J I]]. apply in_flat_map. exists (n, a). split; [exact J|].
  apply named_child in I. destruct I as [-> | ->]; cbn; auto.
Qed.
Lemma sorted_child : forall l w x, In (w, x) (sorted l) -> In x (map fst l).
Proof. intros l w x I. apply in_map_iff in I. destruct I as [p [Q I]]. injection Q as <- <-. now apply in_map. Qed.
Lemma parts_child : forall l w x, In (w, x) (parts l) -> In x l.
Proof. intros l w x I. apply in_map_iff in I. destruct I as [p [Q I]]. now injection Q as <- <-. Qed.
Lemma pair_child : forall (k w : way) l (x : val), In (w, x) (map (pair k) l) -> In x l.
Proof. intros k w l x I. apply in_map_iff in I. destruct I as [p [Q I]]. now injection Q as <- <-. Qed.
Lemma tables_child : forall l w x, In (w, x) (tables_shown l) -> In x (flat_map table_vals l).
Proof.
  intros l w x I. apply in_flat_map in I. destruct I as [t [J I]]. apply in_flat_map. exists t. split; [exact J|].
  apply named_child in I. destruct I as [-> | ->]; cbn; auto.
Qed.
Lemma filter_depth : forall k l f, (depth (VSeq KList (filter f l)) <= depth (VSeq k l))%nat.
Proof.
  intros k l f. cbn [depth]. apply le_n_S. induction l as [|x l IH]; [apply le_n|]. cbn [filter]. destruct (f x); cbn [maxf]; lia.
Qed.
Lemma operand_depth : forall k rk v w x, In (w, x) (operand k rk v) -> (depth x <= depth v)%nat.
Proof.
  intros k rk v w x I.
  assert (D : (exists a, operand k rk v = [(a, v)]) \/ exists ks l, v = VSeq ks l /\ (operand k rk v = [] \/ operand k rk v = [(AsValue, VSeq KList (filter (fun x => negb (is_none x)) l))])).
  { destruct v as [| | | | | | | | |ks l| | | | | | | | | | | | | | | | | | | | |]; try (left; destruct k, rk; eexists; reflexivity).
    destruct rk; try (left; destruct k; eexists; reflexivity);
      (right; exists ks, l; split; [reflexivity|]; destruct k; cbn [operand]; cbv zeta; destruct (_ && _); [now left|now right|now left|now right]). }
  destruct D as [[a Q]|[ks [l [-> [Q|Q]]]]]; rewrite Q in I; [| destruct I |]; destruct I as [I|[]]; injection I as <- <-; [apply le_n|apply filter_depth].
Qed.
Lemma argument_depth : forall v w x, In (w, x) (argument v) -> (depth x <= depth v)%nat.
Proof.
  intros v w x I. assert (D : In (w, x) [(AsName, v)] -> (depth x <= depth v)%nat) by (intros [Q|[]]; injection Q as <- <-; apply le_n).
  destruct v; try exact (D I). destruct k; try exact (D I); (apply pair_child in I; apply Nat.lt_le_incl, children_depth; exact I).
Qed.
Lemma in_out : forall (o : outfile val) w x, In (w, x) (outfile_of o) -> In x (out_vals o).
Proof. intros o w x I. unfold outfile_of in I. destruct (o_file o); [|destruct I]. exact (pair_child _ _ _ _ I). Qed.
Lemma shown_depth : forall v w x, In (w, x) (shown v) -> (depth x < depth v)%nat.
Proof.
  intros v w x I.
  assert (C : In x (children v) -> (depth x < depth v)%nat) by apply children_depth.
  destruct v; cbn [shown children] in *; try (destruct I; fail).
  - destruct I as [I|[]]; injection I as <- <-. apply C. now left.
  - destruct I as [I|[]]; injection I as <- <-. apply C. now left.
  - destruct I as [I|[]]; injection I as <- <-. apply C. now left.
  - destruct I as [I|I]; [injection I as <- <-; apply C; now left|]. apply operand_depth in I.
    apply (Nat.le_lt_trans _ _ _ I). apply children_depth. right. now left.
  - destruct I as [I|[I|[]]]; injection I as <- <-; apply C; [now left|right; now left].
  - apply C. exact (parts_child _ _ _ I).
  - destruct I as [I|[I|[]]]; injection I as <- <-; apply C; [now left|right; now left].
  - apply C. exact (parts_child _ _ _ I).
  - destruct I as [I|[]]; injection I as <- <-. apply C. now left.
  - apply argument_depth in I. apply (Nat.le_lt_trans _ _ _ I). apply children_depth. now left.
  - apply C. exact (names_child _ _ _ I).
  - apply C. rewrite !in_app_iff in *. destruct I as [I|[I|I]]; [left; exact (names_child _ _ _ I)|right; left; exact (sorted_child _ _ _ I)|].
    right; right. destruct (truthy v); [|destruct I]. destruct I as [I|[]]. injection I as <- <-. now left.
  - apply argument_depth in I. apply (Nat.le_lt_trans _ _ _ I). apply children_depth. now left.
  - apply C. unfold sel_vals. rewrite !in_app_iff in *.
    destruct I as [I|[I|[I|[I|[I|[I|I]]]]]];
      [apply names_child in I|apply sorted_child in I|apply parts_child in I|apply in_out in I|apply sorted_child in I|apply tables_child in I|apply parts_child in I]; tauto.
  - destruct I as [I|[I|[]]]; injection I as <- <-; apply C; [now left|right; now left].
  - apply C. unfold ins_vals. rewrite !in_app_iff in *. destruct I as [I|[I|I]]; [apply parts_child in I|apply parts_child in I|apply tables_child in I]; tauto.
  - apply C. unfold upd_vals. rewrite !in_app_iff in *. destruct I as [I|[I|I]]; [apply tables_child in I|apply parts_child in I|apply parts_child in I]; tauto.
  - apply C. unfold del_vals. rewrite !in_app_iff in *. destruct I as [I|[I|I]]; [apply tables_child in I|apply tables_child in I|apply parts_child in I]; tauto.
Qed.
Lemma join_depth : forall v t j x, In t (tables_of v) -> In j (tb_joins t) -> In x (join_vals j) -> (depth x < depth v)%nat.
Proof.
  intros v t j x T J X. apply children_depth.
  assert (V : forall ts, In t ts -> In x (flat_map table_vals ts)).
  { intros ts I. apply in_flat_map. exists t. split; [exact I|]. unfold table_vals. right; right. apply in_flat_map. eauto. }
  destruct v; cbn [tables_of] in T; try (destruct T; fail); cbn [children].
  - unfold sel_vals. apply V in T. rewrite !in_app_iff. tauto.
  - unfold ins_vals. apply V in T. rewrite !in_app_iff. tauto.
  - unfold upd_vals. apply V in T. rewrite !in_app_iff. tauto.
  - unfold del_vals. apply in_app_or in T. rewrite !in_app_iff. destruct T as [T|T]; apply V in T; tauto.
Qed.
Lemma join_shown_vals : forall j w x, In (w, x) (join_shown j) -> In x (join_vals j).
Proof.
  intros j w x I. apply in_app_or in I. unfold join_vals. destruct I as [I|I]; [|apply parts_child in I; cbn; auto].
  apply named_child in I. destruct I as [-> | ->]; cbn; auto.
Qed.
Lemma within_depth : forall y x, within y x -> (depth y <= depth x)%nat.
Proof. intros y x W. induction W as [v|v x w T I W IH]; [apply le_n|]. apply children_depth in I. lia. Qed.

Section Forward.
  Context (E : env) (n : nat).
  Hypothesis IH : forall x, (depth x < n)%nat -> forall e, text E x = Err e -> stops E Possible Itself x e.
  Lemma ref_stops : forall x e, (depth x < n)%nat -> sqlref E (text E) x = Err e -> stops E Possible AsName x e.
  Proof.
    intros x e D H.
    assert (S : is_sql x = true -> text E x = Err e -> stops E Possible AsName x e) by (intros S T; apply st_object; [exact S|exact (IH x D e T)]).
    destruct x; cbn [sqlref is_sql] in H; try discriminate H; try (apply S; [reflexivity|exact H]);
      (apply bind_err in H; destruct H as [H|[? [_ H]]]; [apply S; [reflexivity|exact H]|discriminate]).
  Qed.
  Lemma value_stops : forall x e, (depth x < n)%nat -> sqlvalue E (text E) x = Err e -> stops E Possible AsValue x e.
  Proof.
    intros x. induction x as [x IX] using val_ind_children. intros e D H.
    assert (S : is_sql x = true -> text E x = Err e -> stops E Possible AsValue x e) by (intros S T; apply st_object; [exact S|exact (IH x D e T)]).
    destruct x; cbn [sqlvalue] in H; try discriminate H; try (apply S; [reflexivity|exact H]).
    - destruct (truthy (VSeq k l)) eqn:T.
      + apply bind_err in H. destruct H as [H|[? [_ H]]]; [|discriminate]. apply mapM_err in H. destruct H as [y [I H]].
        apply (st_item _ _ _ _ y); [exact I|]. apply IX; [exact I| |exact H]. pose proof (children_depth (VSeq k l) y I). lia.
      + injection H as <-. destruct l as [|y l]; [|destruct k; discriminate T]. apply st_empty. intros ->. discriminate T.
    - apply bind_err in H; destruct H as [H|[? [_ H]]]; [apply S; [reflexivity|exact H]|discriminate].
    - apply bind_err in H; destruct H as [H|[? [_ H]]]; [apply S; [reflexivity|exact H]|discriminate].
  Qed.
  Lemma printed_stops : forall w x e, (depth x < n)%nat -> printed E w x = Err e -> stops E Possible w x e.
  Proof. intros [] x e D H; [now apply IH|now apply ref_stops|now apply value_stops]. Qed.
  Lemma found_stops : forall v e, (depth v <= n)%nat -> found E (shown v) e -> stops E Possible Itself v e.
  Proof.
    intros v e D [w [x [I P]]]. apply (st_part _ _ _ w x); [exact I|]. apply printed_stops; [|exact P]. apply shown_depth in I. lia.
  Qed.
  Lemma joins_stops : forall v e, (depth v <= n)%nat -> found_joins E (tables_of v) e -> stops E Possible Itself v e.
  Proof.
    intros v e D [t [j [T [J [[w [x [I P]]]|[x [y [X [W [S R]]]]]]]]]].
    - destruct (in_split _ _ J) as [before [after Q]]. apply (st_join _ _ _ t before j after w x); try assumption; [discriminate|].
      apply printed_stops; [|exact P]. pose proof (join_depth v t j x T J (join_shown_vals _ _ _ I)). lia.
    - apply (st_compared _ _ _ t j x y); try assumption; [reflexivity|]. apply IH; [|exact R].
      pose proof (join_depth v t j x T J X). apply within_depth in W. lia.
  Qed.
End Forward.
Lemma cells_stop : forall E n q e, (forall x, (depth x < n)%nat -> forall e, text E x = Err e -> stops E Possible Itself x e) ->
  (depth (VInsert q) <= n)%nat -> rows_str E (text E) (i_rows q) = Err e -> stops E Possible Itself (VInsert q) e.
Proof.
  intros E n q e IH D H. unfold rows_str in H. apply bind_err in H. destruct H as [H|[cols [C H]]].
  - unfold all_columns in H. apply bind_err in H. destruct H as [H|[? [_ H]]]; [|discriminate]. apply mapM_err in H.
    destruct H as [p [I H]]. apply in_concat in I. destruct I as [row [R I]]. apply column_err in H. exact (st_column _ _ q row p e R I H).
  - apply bind_err in H. destruct H as [H|[? [_ H]]]; [|discriminate]. apply mapM_err in H. destruct H as [row [R H]].
    unfold row_str in H. apply bind_err in H. destruct H as [H|[? [_ H]]]; [|discriminate]. apply mapM_err in H. destruct H as [c [_ H]].
    destruct (row_split row c) as [[V _]|[before [after [Q N]]]]; [rewrite V in H; discriminate|].
    apply (st_cell _ _ q before c (row_value row c) after); [rewrite <- Q; exact R|exact N|]. apply (value_stops E n IH); [|exact H].
    assert (DV : (depth (VValue (VStr c) (row_value row c)) < depth (VInsert q))%nat).
    { apply children_depth. cbn [children]. unfold ins_vals. rewrite !in_app_iff. right. left.
      apply in_concat. exists row. split; [exact R|]. clear - Q. set (rv := row_value row c) in *. clearbody rv. rewrite Q. apply in_or_app. right. now left. }
    assert (DX : (depth (row_value row c) < depth (VValue (VStr c) (row_value row c)))%nat) by (apply children_depth; right; now left). lia.
Qed.
Ltac find_in := let p := fresh in let P := fresh in intros p P; rewrite ?in_app_iff; tauto.
Lemma text_step : forall E v e (P : Prop), (found E (shown v) e -> P) -> (found_joins E (tables_of v) e -> P) ->
  (is_sql v = false -> pytext E v = Err e -> P) -> (forall q, v = VInsert q -> rows_str E (text E) (i_rows q) = Err e -> P) ->
  (forall q, v = VUpdate q -> u_where q = [] -> u_allow q = false -> e = EConfirmUpdate -> P) ->
  (forall q, v = VDelete q -> d_where q = [] -> d_allow q = false -> e = EConfirmDelete -> P) -> text E v = Err e -> P.
Proof.
  intros E v e P F J PY RS UP DE H. rewrite text_unfold in H.
  destruct v; cbn [str_body] in H; try (apply PY; [reflexivity|exact H]); clear PY; cbn [shown tables_of] in F, J.
  - discriminate H.
  - apply F. exists AsValue, v. split; [now left|exact H].
  - apply F. exists AsName, v. split; [now left|exact H].
  - apply F. apply bind_err in H. destruct H as [H|[? [_ H]]]; [|discriminate]. exists Itself, v. split; [now left|exact H].
  - apply F. exact (cond_found _ _ _ _ _ _ H).
  - apply F. unfold value_str in H. apply bind_err in H. destruct H as [H|[? [_ H]]]; [exists AsName, v1; split; [now left|exact H]|].
    apply bind_err in H. destruct H as [H|[? [_ H]]]; [exists AsValue, v2; split; [right; now left|exact H]|discriminate].
  - apply F. exact (conds_found _ _ _ _ H).
  - apply F. apply bind_err in H. destruct H as [H|[? [_ H]]]; [exists Itself, v1; split; [now left|exact H]|].
    apply bind_err in H. destruct H as [H|[? [_ H]]]; [exists Itself, v2; split; [right; now left|exact H]|discriminate].
  - apply F. apply bind_err in H. destruct H as [H|[? [_ H]]]; [exact (conds_found _ _ _ _ H)|discriminate].
  - apply F. apply bind_err in H. destruct H as [H|[? [_ H]]]; [exists Itself, v; split; [now left|exact H]|discriminate].
  - apply F. apply bind_err in H. destruct H as [H|[? [_ H]]]; [|discriminate].
    assert (Q : expr_str E (text E) v = Err e \/ is_sql v = true /\ text E v = Err e).
    { destruct k; try (left; exact H). cbn [agg_expr] in H. apply bind_err in H. destruct H as [H|[[] [B H]]]; [| |left; exact H].
      - right. destruct v; cbn [pyeq textual_eq as_num is_sql] in H; try discriminate H;
          try (apply bind_err in H; destruct H as [H|[? [_ H]]]; [split; [reflexivity|exact H]|discriminate]).
        destruct k; discriminate H.
      - destruct (is_sql v) eqn:S; [right; split; [reflexivity|exact H]|]. exfalso.
        destruct v; try discriminate S; cbn [pyeq as_num is_none] in B; try discriminate B. rewrite text_unfold in H. discriminate H. }
    destruct Q as [Q|[S Q]]; [exact (argument_found _ _ _ Q)|]. exists AsName, v. split; [destruct v; try discriminate S; left; reflexivity|].
    cbn [printed]. destruct v; try discriminate S; cbn [sqlref is_sql]; rewrite ?Q; reflexivity || exact Q.
  - apply F. apply bind_err in H. destruct H as [H|[? [_ H]]]; [exact (columns_found _ _ _ H)|discriminate].
  - apply F. apply bind_err in H. destruct H as [H|[? [_ H]]]; [apply columns_found in H; apply (found_in _ _ _ _ H); find_in|].
    apply bind_err in H. destruct H as [H|[? [_ H]]]; [apply ctx_err in H; apply orders_found in H; apply (found_in _ _ _ _ H); find_in|].
    apply bind_err in H. destruct H as [H|[? [_ H]]]; [|discriminate]. destruct (truthy v); [|discriminate].
    apply bind_err in H. destruct H as [H|[? [_ H]]]; [|discriminate]. exists AsValue, v. split; [rewrite !in_app_iff; right; right; now left|exact H].
  - apply F. apply bind_err in H. destruct H as [H|[? [_ H]]]; [exact (argument_found _ _ _ H)|discriminate].
  - unfold select_str in H.
    apply bind_err in H. destruct H as [H|[? [_ H]]]; [apply ctx_err in H; apply F; apply columns_found in H; apply (found_in _ _ _ _ H); find_in|].
    apply bind_err in H. destruct H as [H|[? [_ H]]]; [apply ctx_err in H; apply F; apply orders_found in H; apply (found_in _ _ _ _ H); find_in|].
    apply bind_err in H. destruct H as [H|[? [_ H]]]; [apply ctx_err in H; apply F; apply conds_found in H; apply (found_in _ _ _ _ H); find_in|].
    apply bind_err in H. destruct H as [H|[? [_ H]]].
    { apply F. destruct (out_set (s_out q)) eqn:O; [|discriminate]. apply ctx_err in H. apply out_found in H; [|exact O]. apply (found_in _ _ _ _ H). find_in. }
    apply bind_err in H. destruct H as [H|[? [_ H]]]; [apply ctx_err in H; discriminate|].
    apply bind_err in H. destruct H as [H|[? [_ H]]]; [apply ctx_err in H; apply F; apply orders_found in H; apply (found_in _ _ _ _ H); find_in|].
    apply bind_err in H. destruct H as [H|[? [_ H]]]; [apply ctx_err in H; discriminate|].
    apply bind_err in H. destruct H as [H|[? [_ H]]]; [apply ctx_err in H; discriminate|].
    apply bind_err in H. destruct H as [H|[? [_ H]]].
    { apply ctx_err in H. apply tables_found in H. destruct H as [H|H]; [|exact (J H)]. apply F. apply (found_in _ _ _ _ H). find_in. }
    apply bind_err in H. destruct H as [H|[? [_ H]]]; [apply ctx_err in H; apply F; apply conds_found in H; apply (found_in _ _ _ _ H); find_in|].
    discriminate.
  - apply F. apply bind_err in H. destruct H as [H|[? [_ H]]]; [exists Itself, v1; split; [now left|exact H]|].
    apply bind_err in H. destruct H as [H|[? [_ H]]]; [exists Itself, v2; split; [right; now left|exact H]|discriminate].
  - unfold insert_str in H.
    apply bind_err in H. destruct H as [H|[? [_ H]]]; [apply ctx_err in H; discriminate|].
    apply bind_err in H. destruct H as [H|[? [_ H]]]; [apply ctx_err in H; discriminate|].
    apply bind_err in H. destruct H as [H|[? [_ H]]]; [apply ctx_err in H; apply F; apply values_found in H; apply (found_in _ _ _ _ H); find_in|].
    apply bind_err in H. destruct H as [H|[? [_ H]]]; [apply ctx_err in H; apply F; apply values_found in H; apply (found_in _ _ _ _ H); find_in|].
    apply bind_err in H. destruct H as [H|[? [_ H]]].
    { apply ctx_err in H. apply tables_found in H. destruct H as [H|H]; [|exact (J H)]. apply F. apply (found_in _ _ _ _ H). find_in. }
    apply bind_err in H. destruct H as [H|[? [_ H]]]; [apply ctx_err in H; exact (RS q eq_refl H)|]. discriminate.
  - unfold update_str in H. destruct (is_nilb (u_where q) && negb (u_allow q)) eqn:C.
    { injection H as <-. apply andb_true_iff in C. destruct C as [C1 C2]. apply (UP q eq_refl); [now destruct (u_where q)|now destruct (u_allow q)|reflexivity]. }
    apply bind_err in H. destruct H as [H|[? [_ H]]].
    { apply ctx_err in H. apply tables_found in H. destruct H as [H|H]; [|exact (J H)]. apply F. apply (found_in _ _ _ _ H). find_in. }
    apply bind_err in H. destruct H as [H|[? [_ H]]]; [apply ctx_err in H; discriminate|].
    apply bind_err in H. destruct H as [H|[? [_ H]]]; [apply ctx_err in H; apply F; apply values_found in H; apply (found_in _ _ _ _ H); find_in|].
    apply bind_err in H. destruct H as [H|[? [_ H]]]; [apply ctx_err in H; apply F; apply conds_found in H; apply (found_in _ _ _ _ H); find_in|].
    discriminate.
  - unfold delete_str in H. destruct (is_nilb (d_where q) && negb (d_allow q)) eqn:C.
    { injection H as <-. apply andb_true_iff in C. destruct C as [C1 C2]. apply (DE q eq_refl); [now destruct (d_where q)|now destruct (d_allow q)|reflexivity]. }
    apply bind_err in H. destruct H as [H|[? [_ H]]]; [apply ctx_err in H; discriminate|].
    apply bind_err in H. destruct H as [H|[? [_ H]]].
    { apply ctx_err in H. apply tables_found in H. destruct H as [H|[t [j [T X]]]]; [apply F; apply (found_in _ _ _ _ H); find_in|].
      apply J. exists t, j. split; [apply in_or_app; now right|exact X]. }
    apply bind_err in H. destruct H as [H|[? [_ H]]].
    { apply ctx_err in H. apply tables_found in H. destruct H as [H|[t [j [T X]]]]; [apply F; apply (found_in _ _ _ _ H); find_in|].
      apply J. exists t, j. split; [apply in_or_app; now left|exact X]. }
    apply bind_err in H. destruct H as [H|[? [_ H]]]; [apply ctx_err in H; apply F; apply conds_found in H; apply (found_in _ _ _ _ H); find_in|].
    discriminate.
Qed.

Lemma text_causes : forall E v e, text E v = Err e -> stops E Possible Itself v e.
Proof.
  intros E v. remember (depth v) as n eqn:N. revert v N. induction n as [n IHn] using lt_wf_ind. intros v N e H.
  assert (IH : forall x, (depth x < n)%nat -> forall e, text E x = Err e -> stops E Possible Itself x e) by (intros x D e' X; exact (IHn _ D x eq_refl e' X)).
  clear IHn. assert (D : (depth v <= n)%nat) by lia. clear N. revert H. apply text_step.
  - now apply found_stops with (n := n).
  - now apply joins_stops with (n := n).
  - intros S P. assert (X : (forall s, v <> VStr s) /\ (forall z, v <> VInt z) /\ e_pystr E v = None /\ e = EUnmodelled).
    { destruct v; try discriminate S; cbn [pytext] in P; try discriminate P;
        (destruct (e_pystr E _); [discriminate|]; injection P as <-; split; [discriminate|split; [discriminate|split; reflexivity]]). }
    destruct X as [X1 [X2 [X3 ->]]]. now apply st_foreign.
  - intros q -> H. exact (cells_stop E n q e IH D H).
  - intros q -> W A ->. now apply st_update.
  - intros q -> W A ->. now apply st_delete.
Qed.

(** ** What is certain to raise does *)
Definition fine (E : env) (p : way * val) : Prop := exists t, printed E (fst p) (snd p) = Ok t.
Ltac okb H := let a := fresh "a" in let K := fresh "K" in apply bind_ok in H; destruct H as [a [K H]].
Lemma aliased_fine : forall E n a t, aliased_str E (text E) (n, a) = Ok t -> Forall (fine E) (named n a).
Proof.
  intros E n a t H. cbn [aliased_str] in H. unfold named. destruct (truthy a).
  - okb H. okb H. repeat constructor; eexists; eassumption.
  - repeat constructor. eexists; eassumption.
Qed.
Lemma columns_fine : forall E cols t, columns_str E (text E) cols = Ok t -> Forall (fine E) (names cols).
Proof.
  intros E cols t H. unfold columns_str in H. okb H. apply Forall_flat_map, Forall_forall. intros [n b] I.
  destruct (mapM_all _ _ _ _ _ K _ I) as [s Q]. exact (aliased_fine _ _ _ _ Q).
Qed.
Lemma orders_fine : forall E kw os t, orders_str E (text E) kw os = Ok t -> Forall (fine E) (sorted os).
Proof.
  intros E kw os t H. unfold orders_str in H. okb H. apply Forall_map, Forall_forall. intros [c d] I.
  destruct (mapM_all _ _ _ _ _ K _ I) as [s Q]. destruct d; cbn [order_str] in Q; [eexists; exact Q|]. okb Q. eexists; eassumption.
Qed.
Lemma parts_fine : forall E ps t, mapM (text E) ps = Ok t -> Forall (fine E) (parts ps).
Proof. intros E ps t H. apply Forall_map, Forall_forall. intros x I. exact (mapM_all _ _ _ _ _ H _ I). Qed.
Lemma conds_fine : forall E kw ps t, conds_str (text E) kw ps = Ok t -> Forall (fine E) (parts ps).
Proof. intros E kw ps t H. unfold conds_str in H. okb H. exact (parts_fine _ _ _ K). Qed.
Lemma values_fine : forall E kw ps t, values_str (text E) kw ps = Ok t -> Forall (fine E) (parts ps).
Proof. intros E kw ps t H. unfold values_str in H. okb H. exact (parts_fine _ _ _ K). Qed.
Lemma argument_fine : forall E x t, expr_str E (text E) x = Ok t -> Forall (fine E) (argument x).
Proof.
  intros E x t H. assert (D : sqlref E (text E) x = Ok t -> Forall (fine E) [(AsName, x)]) by (intros R; repeat constructor; eexists; exact R).
  destruct x; try exact (D H). destruct k; try exact (D H); cbn [expr_str argument] in *; okb H;
    (apply Forall_map, Forall_forall; intros y I; exact (mapM_all _ _ _ _ _ K _ I)).
Qed.
Lemma opt_fine : forall E kw o t, out_opt E (text E) kw o = Ok t -> Forall (fine E) (map (pair AsValue) (opt_vals o)).
Proof. intros E kw [v|] t H; [|constructor]. cbn [out_opt] in H. okb H. repeat constructor. eexists; eassumption. Qed.
Lemma out_fine : forall E o t, part_ctx (out_set o) (out_str E (text E) o) = Ok t -> Forall (fine E) (outfile_of o).
Proof.
  intros E [[f|] a b c] t H; [|constructor]. unfold outfile_of. cbn [o_file]. unfold out_vals. cbn [o_file o_fields o_lines o_encl].
  rewrite !map_app. apply ctx_ok in H. destruct H as [x H]. unfold out_str in H. cbn [o_file o_fields o_lines o_encl] in H. okb H. okb H. okb H. okb H.
  repeat (apply Forall_app; split); eapply opt_fine; eassumption.
Qed.
Lemma cond_fine : forall E k c rk v t, fmt_condition (sqlref E (text E) c) rk (transformer E (text E) k v) v = Ok t ->
  Forall (fine E) ((AsName, c) :: operand k rk v).
Proof.
  intros E k c rk v t H.
  assert (P : forall r, fmt_plain (sqlref E (text E) c) rk r = Ok t -> fine E (AsName, c) /\ exists u, r = Ok u).
  { intros r F. unfold fmt_plain in F. okb F. okb F. split; eexists; eassumption. }
  assert (N : fmt_plain (sqlref E (text E) c) rk (transformer E (text E) k v v) = Ok t -> (exists w, operand k rk v = [(w, v)] /\ transformer E (text E) k v v = printed E w v) ->
    Forall (fine E) ((AsName, c) :: operand k rk v)).
  { intros F [w [-> Q]]. rewrite Q in F. destruct (P _ F) as [C [u U]]. constructor; [exact C|]. repeat constructor. exists u. exact U. }
  assert (S : forall ks l, v = VSeq ks l -> rk = RIn \/ rk = RNotIn -> Forall (fine E) ((AsName, c) :: operand k rk v)).
  { intros ks l -> R. assert (T : transformer E (text E) k (VSeq ks l) = sqlvalue E (text E)) by (now destruct k). rewrite T in H.
    assert (O : operand k rk (VSeq ks l) = if existsb is_none l && is_nilb (filter (fun x => negb (is_none x)) l) then [] else [(AsValue, VSeq KList (filter (fun x => negb (is_none x)) l))])
      by (destruct R as [-> | ->]; now destruct k). rewrite O.
    assert (F : fmt_in (sqlref E (text E) c) rk (sqlvalue E (text E)) (VSeq ks l) = Ok t) by (destruct R as [-> | ->]; exact H).
    unfold fmt_in in F. cbv zeta in F. destruct (existsb is_none l); cbn [andb] in *; [destruct (is_nilb (filter _ l))|].
    - constructor; [|constructor]. destruct rk; okb F; eexists; eassumption.
    - destruct rk; okb F; okb F; (constructor; [eexists; eassumption|constructor; [eexists; eassumption|constructor]]).
    - destruct (P _ F) as [C [u U]]. constructor; [exact C|constructor; [exists u; exact U|constructor]]. }
  assert (X : (fmt_condition (sqlref E (text E) c) rk (transformer E (text E) k v) v = fmt_plain (sqlref E (text E) c) rk (transformer E (text E) k v v) /\
               exists w, operand k rk v = [(w, v)] /\ transformer E (text E) k v v = printed E w v) \/ exists ks l, v = VSeq ks l /\ (rk = RIn \/ rk = RNotIn)).
  { destruct v as [| | | | |s| | | |ks l| | | | | | | | | | | | | | | | | | | | |];
      try (left; split; [destruct rk; reflexivity|]; exists AsValue; destruct k, rk; split; reflexivity).
    - left. split; [destruct rk; reflexivity|]. destruct k; [exists AsValue|exists AsName]; destruct rk; split; reflexivity.
    - destruct rk; try (left; split; [reflexivity|]; exists AsValue; destruct k; split; reflexivity); right; exists ks, l; auto. }
  destruct X as [[F X]|[ks [l [Q R]]]]; [|exact (S ks l Q R)]. apply N; [|exact X]. now rewrite <- F.
Qed.
Lemma ctx_fine : forall b t r (l : list (way * val)) E, part_ctx b t = Ok r -> (forall x, t = Ok x -> Forall (fine E) l) -> (b = false -> l = []) -> Forall (fine E) l.
Proof. intros [] t r l E H F N; [apply ctx_ok in H; destruct H as [x H]; exact (F x H)|rewrite N; [constructor|reflexivity]]. Qed.
Definition joins_fine (E : env) (ts : list (table val)) : Prop :=
  forall t before j after, In t ts -> tb_joins t = before ++ j :: after -> (forall h, In h before -> ~ repeats E h j) -> Forall (fine E) (join_shown j).
Lemma tables_fine : forall E kw ts t, tables_str E (text E) kw ts = Ok t -> Forall (fine E) (tables_shown ts) /\ joins_fine E ts.
Proof.
  intros E kw ts t H. unfold tables_str in H. okb H. split.
  - apply Forall_flat_map, Forall_forall. intros tb I. destruct (mapM_all _ _ _ _ _ K _ I) as [s Q]. unfold table_str in Q. okb Q. exact (aliased_fine _ _ _ _ K0).
  - intros tb before j after I J N. destruct (mapM_all _ _ _ _ _ K _ I) as [s Q]. unfold table_str in Q. okb Q.
    destruct (is_nilb (tb_joins tb)) eqn:Z; [rewrite J in Z; now destruct before|]. okb Q. okb Q. rewrite J in K1.
    destruct (minimize_fresh _ _ _ _ _ K1 N) as [k [Ik Ek]]. destruct (mapM_all _ _ _ _ _ K2 _ Ik) as [s' Q']. rewrite <- Ek.
    unfold join_str in Q'. okb Q'. okb Q'. apply Forall_app. split; [exact (aliased_fine _ _ _ _ K4)|].
    destruct (is_nilb (j_ons k)) eqn:ZK; [destruct (j_ons k); [constructor|discriminate]|]. okb K3. exact (conds_fine _ _ _ _ K5).
Qed.
Lemma tables_ctx : forall E kw ts t, part_ctx (negb (is_nilb ts)) (tables_str E (text E) kw ts) = Ok t -> Forall (fine E) (tables_shown ts) /\ joins_fine E ts.
Proof. intros E kw [|t0 ts] t H; [split; [constructor|intros ? ? ? ? []]|]. apply ctx_ok in H. destruct H as [x H]. exact (tables_fine _ _ _ _ H). Qed.
Lemma parts_ctx : forall E kw ps t, part_ctx (negb (is_nilb ps)) (conds_str (text E) kw ps) = Ok t -> Forall (fine E) (parts ps).
Proof. intros E kw [|p ps] t H; [constructor|]. apply ctx_ok in H. destruct H as [x H]. exact (conds_fine _ _ _ _ H). Qed.
Lemma values_ctx : forall E kw ps t, part_ctx (negb (is_nilb ps)) (values_str (text E) kw ps) = Ok t -> Forall (fine E) (parts ps).
Proof. intros E kw [|p ps] t H; [constructor|]. apply ctx_ok in H. destruct H as [x H]. exact (values_fine _ _ _ _ H). Qed.
Lemma orders_ctx : forall E kw ps t, part_ctx (negb (is_nilb ps)) (orders_str E (text E) kw ps) = Ok t -> Forall (fine E) (sorted ps).
Proof. intros E kw [|p ps] t H; [constructor|]. apply ctx_ok in H. destruct H as [x H]. exact (orders_fine _ _ _ _ H). Qed.
Lemma text_fine : forall E v t, text E v = Ok t -> Forall (fine E) (shown v) /\ joins_fine E (tables_of v).
Proof.
  intros E v t H. rewrite text_unfold in H.
  assert (Z : joins_fine E []) by (intros ? ? ? ? []).
  destruct v; cbn [str_body shown tables_of] in *; try (split; [solve [constructor]|exact Z]).
  - split; [|exact Z]. repeat constructor. eexists; exact H.
  - split; [|exact Z]. repeat constructor. eexists; exact H.
  - split; [|exact Z]. okb H. repeat constructor. eexists; eassumption.
  - split; [|exact Z]. exact (cond_fine _ _ _ _ _ _ H).
  - split; [|exact Z]. unfold value_str in H. okb H. okb H. repeat constructor; eexists; eassumption.
  - split; [|exact Z]. exact (conds_fine _ _ _ _ H).
  - split; [|exact Z]. okb H. okb H. repeat constructor; eexists; eassumption.
  - split; [|exact Z]. okb H. exact (conds_fine _ _ _ _ K).
  - split; [|exact Z]. okb H. repeat constructor. eexists; eassumption.
  - split; [|exact Z]. okb H. destruct k; try exact (argument_fine _ _ _ K). cbn [agg_expr] in K. okb K. destruct a0; [|exact (argument_fine _ _ _ K)].
    assert (R : is_sql v = true \/ v = VStr (lit "*")).
    { destruct v; cbn [is_sql]; auto; cbn [pyeq textual_eq as_num is_none] in K0; try discriminate K0. right. injection K0 as K0. apply seqb_eq in K0. now rewrite K0. }
    destruct R as [R| ->]; [|cbn [argument]; repeat constructor; eexists; reflexivity].
    assert (A : argument v = [(AsName, v)]) by (destruct v; try discriminate R; reflexivity). rewrite A. repeat constructor. unfold fine. cbn [fst snd printed].
    destruct v; try discriminate R; cbn [sqlref is_sql]; rewrite ?K; cbn [bind]; eexists; reflexivity || exact K.
  - split; [|exact Z]. okb H. exact (columns_fine _ _ _ K).
  - split; [|exact Z]. okb H. okb H. okb H. apply Forall_app. split; [exact (columns_fine _ _ _ K)|]. apply Forall_app. split; [exact (orders_ctx _ _ _ _ K0)|].
    destruct (truthy v); [|constructor]. okb K1. repeat constructor. eexists; eassumption.
  - split; [|exact Z]. okb H. exact (argument_fine _ _ _ K).
  - unfold select_str in H. okb H. okb H. okb H. okb H. okb H. okb H. okb H. okb H. okb H. okb H.
    destruct (tables_ctx _ _ _ _ K7) as [T1 T2]. split; [|exact T2].
    repeat (apply Forall_app; split); [|exact (orders_ctx _ _ _ _ K0)|exact (parts_ctx _ _ _ _ K1)|exact (out_fine _ _ _ K2)|exact (orders_ctx _ _ _ _ K4)|exact T1|exact (parts_ctx _ _ _ _ K8)].
    apply ctx_ok in K. destruct K as [x K]. exact (columns_fine _ _ _ K).
  - split; [|exact Z]. okb H. okb H. repeat constructor; eexists; eassumption.
  - unfold insert_str in H. okb H. okb H. okb H. okb H. okb H. destruct (tables_ctx _ _ _ _ K3) as [T1 T2]. split; [|exact T2].
    repeat (apply Forall_app; split); [exact (values_ctx _ _ _ _ K1)|exact (values_ctx _ _ _ _ K2)|exact T1].
  - unfold update_str in H. destruct (_ && _); [discriminate|]. okb H. okb H. okb H. okb H. destruct (tables_ctx _ _ _ _ K) as [T1 T2]. split; [|exact T2].
    repeat (apply Forall_app; split); [exact T1|exact (values_ctx _ _ _ _ K1)|exact (parts_ctx _ _ _ _ K2)].
  - unfold delete_str in H. destruct (_ && _); [discriminate|]. okb H. okb H. okb H. okb H.
    destruct (tables_ctx _ _ _ _ K0) as [T1 T2], (tables_ctx _ _ _ _ K1) as [T3 T4]. split.
    + repeat (apply Forall_app; split); [exact T1|exact T3|exact (parts_ctx _ _ _ _ K2)].
    + intros tb before j after I. apply in_app_or in I. destruct I as [I|I]; [now apply (T4 tb before j after)|now apply (T2 tb before j after)].
Qed.
Lemma suniq_in : forall c l, In c l -> In c (suniq l).
Proof.
  intros c l. induction l as [|x l IH]; [intros []|]. cbn [suniq]. intros [<-|I].
  - destruct (existsb (seqb x) l) eqn:X; [|now left]. apply existsb_exists in X. destruct X as [y [I Q]]. apply seqb_eq in Q. subst. now apply IH.
  - destruct (existsb (seqb x) l); [now apply IH|right; now apply IH].
Qed.
Lemma sinsert_in : forall c x l, c = x \/ In c l -> In c (sinsert x l).
Proof.
  intros c x l. induction l as [|y l IH]; cbn [sinsert]; intros [->|I]; try (now left); try (destruct I; fail).
  - destruct (sltb x y); [now left|]. right. apply IH. now left.
  - destruct (sltb x y); [now right|]. destruct I as [<-|I]; [now left|]. right. apply IH. now right.
Qed.
Lemma ssort_in : forall c l, In c l -> In c (ssort l).
Proof. intros c l. induction l as [|x l IH]; [intros []|]. cbn [ssort]. intros [<-|I]; apply sinsert_in; auto. Qed.
Lemma mapM_in : forall A B (f : A -> res B) l r, mapM f l = Ok r -> forall x b, In x l -> f x = Ok b -> In b r.
Proof.
  intros A B f l. induction l as [|y l IH]; intros r H x b I Q; [destruct I|]. cbn [mapM] in H. okb H. okb H. injection H as <-.
  destruct I as [<-|I]; [left; congruence|right; exact (IH _ K0 x b I Q)].
Qed.
Lemma insert_fine : forall E q t, text E (VInsert q) = Ok t ->
  (forall row p, In row (i_rows q) -> In p row -> exists c, part_column p = Ok c) /\
  (forall before c v after, In (before ++ VValue (VStr c) v :: after) (i_rows q) -> (forall u, ~ In (VValue (VStr c) u) after) -> fine E (AsValue, v)).
Proof.
  intros E q t H. rewrite text_unfold in H. cbn [str_body] in H. unfold insert_str in H. do 6 okb H. clear K K0 K1 K2 K3.
  destruct (i_rows q) as [|r0 rows] eqn:R; [split; [intros ? ? []|intros ? ? ? ? []]|]. cbn [is_nilb negb] in K4. apply ctx_ok in K4. destruct K4 as [x K].
  rewrite <- R in *. clear R. unfold rows_str in K. okb K. okb K. unfold all_columns in K0. okb K0. injection K0 as <-. split.
  - intros row p I J. apply (mapM_all _ _ _ _ _ K2). apply in_concat. eauto.
  - intros before c v after I N. destruct (mapM_all _ _ _ _ _ K1 _ I) as [s Q]. unfold row_str in Q. okb Q.
    assert (C : In c (ssort (suniq a7))).
    { apply ssort_in, suniq_in. apply (mapM_in _ _ _ _ _ K2 (VValue (VStr c) v)); [|reflexivity]. apply in_concat. eexists. split; [exact I|]. apply in_or_app. right. now left. }
    destruct (mapM_all _ _ _ _ _ K0 _ C) as [s' Q']. exists s'. cbn [fst snd printed].
    destruct (row_split (before ++ VValue (VStr c) v :: after) c) as [[_ X]|[b2 [z2 [X Y]]]].
    + exfalso. apply (X v). apply in_or_app. right. now left.
    + assert (V : v = row_value (before ++ VValue (VStr c) v :: after) c); [|congruence].
      clear - X N Y. revert X Y. generalize (row_value (before ++ VValue (VStr c) v :: after) c) as u. intros u X Y. revert b2 X.
      induction before as [|p before IB]; intros [|p2 b2] X; cbn [app] in X.
      * now injection X.
      * exfalso. injection X as _ X. apply (N u). rewrite X. apply in_or_app. right. now left.
      * exfalso. injection X as _ X. apply (Y v). rewrite <- X. apply in_or_app. right. now left.
      * injection X as _ X. exact (IB b2 X).
Qed.
Lemma causes_raise : forall E w v e, stops E Certain w v e -> exists e', printed E w v = Err e'.
Proof.
  intros E w v e S. 
  assert (B : forall w x, ~ fine E (w, x) -> exists e', printed E w x = Err e').
  { intros w0 x N. destruct (printed E w0 x) as [t|e0] eqn:P; [|eauto]. exfalso. apply N. exists t. exact P. }
  assert (NB : forall w x, (exists e', printed E w x = Err e') -> ~ fine E (w, x)) by (intros w0 x [e0 H] [t T]; cbn [fst snd] in T; congruence).
  induction S as [k K|k l x e I S IH|w v e Q S IH|v Q N1 N2 P|v w x e I S IH|v t before j after w x e T J F I S IH|v t j x y e F|q before c v after e I N S IH|q row p e I J N|q W A|q W A].
  - exists EInvalidArgument. destruct k; try reflexivity. now destruct K.
  - cbn [printed sqlvalue]. assert (T : truthy (VSeq k l) = true) by (destruct l; [destruct I|now destruct k]). rewrite T.
    cbn [printed] in IH. destruct IH as [e' IH]. destruct (mapM (sqlvalue E (text E)) l) as [r|e1] eqn:M; [|eexists; reflexivity].
    exfalso. destruct (mapM_all _ _ _ _ _ M x I). congruence.
  - destruct IH as [e' IH]. cbn [printed] in IH. exists e'. destruct w; [exact IH| |]; cbn [printed]; destruct v; try discriminate Q; cbn [sqlref sqlvalue is_sql]; rewrite IH; reflexivity.
  - exists EUnmodelled. cbn [printed]. rewrite text_unfold. destruct v; try discriminate Q; cbn [str_body pytext]; rewrite ?P; try reflexivity; exfalso; [now apply (N2 z)|now apply (N1 s)].
  - apply B. intros [t T]. apply (NB w x IH). destruct (text_fine E v t T) as [A _]. rewrite Forall_forall in A. exact (A _ I).
  - apply B. intros [u U]. apply (NB w x IH). destruct (text_fine E v u U) as [_ A]. specialize (A t before j after T J (F eq_refl)). rewrite Forall_forall in A. exact (A _ I).
  - discriminate F.
  - apply B. intros [u U]. apply (NB AsValue v IH). exact (proj2 (insert_fine E q u U) before c v after I N).
  - apply B. intros [u U]. destruct (proj1 (insert_fine E q u U) row p I J) as [c C]. apply column_err in N. congruence.
  - exists EConfirmUpdate. cbn [printed]. rewrite text_unfold. cbn [str_body]. unfold update_str. now rewrite W, A.
  - exists EConfirmDelete. cbn [printed]. rewrite text_unfold. cbn [str_body]. unfold delete_str. now rewrite W, A.
Qed.
