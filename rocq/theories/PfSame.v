(** Lemmas: equal objects have the same text. *)
From Coq Require Import Lia.
From Verif Require Import Base BaseFacts NumFmt Value Backend Eq Render RenderFacts SpecArgs ParseArgs Build SpecEquality SpecSame PfDedupe PfEquality.
Open Scope N_scope.

(** ** Objects compared by text replaced by their texts *)
Definition pair_map {A} (g : A -> A) (p : A * A) : A * A := match p with (a, b) => (g a, g b) end.
Definition fst_map {A B} (g : A -> A) (p : A * B) : A * B := match p with (a, b) => (g a, b) end.
Definition join_map {A} (g : A -> A) (j : join A) : join A := match j with MkJoin t n a o => MkJoin t (g n) (g a) (map g o) end.
Definition table_map {A} (g : A -> A) (t : table A) : table A := match t with MkTable n a js => MkTable (g n) (g a) (map (join_map g) js) end.
Definition out_map {A} (g : A -> A) (o : outfile A) : outfile A :=
  match o with MkOutfile a b c d => MkOutfile (option_map g a) (option_map g b) (option_map g c) (option_map g d) end.
Definition sel_map {A} (g : A -> A) (q : selq A) : selq A :=
  match q with MkSel op c t w gr h o l out fu =>
    MkSel op (map (pair_map g) c) (map (table_map g) t) (map g w) (map (fst_map g) gr) (map g h) (map (fst_map g) o) l (out_map g out) fu end.
Definition ins_map {A} (g : A -> A) (q : insq A) : insq A :=
  match q with MkIns rp ig t rows dup cf upd => MkIns rp ig (map (table_map g) t) (map (map g) rows) (map g dup) cf (map g upd) end.
Definition upd_map {A} (g : A -> A) (q : updq A) : updq A :=
  match q with MkUpd ig t v w al => MkUpd ig (map (table_map g) t) (map g v) (map g w) al end.
Definition del_map {A} (g : A -> A) (q : delq A) : delq A :=
  match q with MkDel ig t r w al => MkDel ig (map (table_map g) t) (map (table_map g) r) (map g w) al end.

Section Canon.
  Context (E : env).
  Notation r := (text E).
  Fixpoint canon (v : val) : val :=
    if textual_eq v then match r v with Ok t => VCustom t | Err _ => v end
    else match v with
    | VCond k c rk x => VCond k (canon c) rk (canon x)
    | VValue c x => VValue (canon c) (canon x)
    | VConds ps => VConds (map canon ps)
    | VSelect q => VSelect (sel_map canon q)
    | VUnion t a b => VUnion t (canon a) (canon b)
    | VInsert q => VInsert (ins_map canon q)
    | VUpdate q => VUpdate (upd_map canon q)
    | VDelete q => VDelete (del_map canon q)
    | _ => v
    end.
  Lemma canon_textual : forall v, textual_eq v = true -> canon v = match r v with Ok t => VCustom t | Err _ => v end.
  Proof. intros v T. destruct v; try discriminate; reflexivity. Qed.
  Lemma canon_kind : forall v, textual_eq (canon v) = textual_eq v /\ is_sql (canon v) = is_sql v /\ truthy (canon v) = truthy v.
  Proof.
    intros v. destruct (textual_eq v) eqn:T.
    - rewrite (canon_textual v T). destruct (r v); destruct v; try discriminate; repeat split.
    - destruct v; try discriminate; repeat split.
  Qed.
  Lemma custom_text : forall s, r (VCustom s) = Ok s.
  Proof. intros s. now rewrite text_unfold. Qed.
  Lemma textual_text : forall v, textual_eq v = true -> r (canon v) = r v.
  Proof. intros v T. rewrite (canon_textual v T). destruct (r v) eqn:Q; [apply custom_text|exact Q]. Qed.
  (** Places where a value, a name or a str is shown. *)
  Lemma canon_value : forall v, r (canon v) = r v -> sqlvalue E r (canon v) = sqlvalue E r v.
  Proof.
    intros v Q. destruct (textual_eq v) eqn:T.
    - rewrite (canon_textual v T) in *. destruct (r v) as [t|] eqn:R; destruct v; try discriminate; cbn [sqlvalue]; congruence.
    - destruct v; try discriminate; cbn [canon textual_eq] in *; try reflexivity; cbn [sqlvalue]; congruence.
  Qed.
  Lemma canon_ref : forall v, r (canon v) = r v -> sqlref E r (canon v) = sqlref E r v.
  Proof.
    intros v Q. destruct (textual_eq v) eqn:T.
    - rewrite (canon_textual v T) in *. destruct (r v) as [t|] eqn:R; destruct v; try discriminate; cbn [sqlref is_sql]; congruence.
    - destruct v; try discriminate; cbn [canon textual_eq] in *; try reflexivity; cbn [sqlref is_sql]; congruence.
  Qed.
  Lemma canon_str : forall v s, canon v = VStr s <-> v = VStr s.
  Proof.
    intros v s. destruct (textual_eq v) eqn:T.
    - rewrite (canon_textual v T). destruct (r v); destruct v; try discriminate; split; discriminate.
    - destruct v; try discriminate; cbn [canon textual_eq]; split; try discriminate; auto.
  Qed.
End Canon.

(** ** Comparison *)
Section EqMap.
  Context (f : val -> val -> res bool) (g : val -> val).
  Definition agree (l m : list val) : Prop := forall x y, In x l -> In y m -> f (g x) (g y) = f x y.
  Lemma list_eq_map : forall A (e : A -> A -> res bool) (h : A -> A) l m, (forall x y, In x l -> In y m -> e (h x) (h y) = e x y) ->
    list_eq e (map h l) (map h m) = list_eq e l m.
  Proof.
    intros A e h l m H. unfold list_eq. rewrite !map_length. destruct (Nat.eqb _ _); [|reflexivity].
    revert m H. induction l as [|a l IH]; intros [|b m] H; try reflexivity. cbn [map all2]. rewrite H by (now left).
    rewrite IH; [reflexivity|]. intros x y I J. apply H; now right.
  Qed.
  Lemma pair_eq_map : forall p q, agree (pair_vals p) (pair_vals q) -> pair_eq f (pair_map g p) (pair_map g q) = pair_eq f p q.
  Proof. intros [a b] [c d] H. cbn [pair_eq pair_map]. rewrite !H by (cbn; auto). reflexivity. Qed.
  Lemma ord_eq_map : forall p q : val * sortd, agree [fst p] [fst q] -> ord_eq f (fst_map g p) (fst_map g q) = ord_eq f p q.
  Proof. intros [a b] [c d] H. cbn [ord_eq fst_map]. rewrite !H by (cbn; auto). reflexivity. Qed.
  Lemma join_eq_map : forall p q, agree (join_vals p) (join_vals q) -> join_eq f (join_map g p) (join_map g q) = join_eq f p q.
  Proof.
    intros [t n a o] [t' n' a' o'] H. unfold join_vals in H. cbn [j_name j_alias j_ons] in H. cbn [join_eq join_map].
    rewrite !H by (cbn; auto). rewrite (list_eq_map _ f g); [reflexivity|]. intros x y I J. apply H; cbn; auto.
  Qed.
  Lemma table_eq_map : forall p q, agree (table_vals p) (table_vals q) -> table_eq f (table_map g p) (table_map g q) = table_eq f p q.
  Proof.
    intros [n a js] [n' a' js'] H. unfold table_vals in H. cbn [tb_name tb_alias tb_joins] in H. cbn [table_eq table_map].
    rewrite !H by (cbn; auto). rewrite (list_eq_map _ _ (join_map g)); [reflexivity|]. intros x y I J. apply join_eq_map.
    intros u v U V. apply H; right; right; apply in_flat_map; eauto.
  Qed.
  Lemma opt_eq_map : forall p q : option val, agree (opt_vals p) (opt_vals q) -> opt_eq f (option_map g p) (option_map g q) = opt_eq f p q.
  Proof. intros [x|] [y|] H; try reflexivity. cbn [opt_eq option_map]. apply H; cbn; auto. Qed.
  Lemma out_eq_map : forall p q, agree (out_vals p) (out_vals q) -> out_eq f (out_map g p) (out_map g q) = out_eq f p q.
  Proof.
    intros [a b c d] [a' b' c' d'] H. unfold out_vals in H. cbn [o_file o_fields o_lines o_encl] in H. cbn [out_eq out_map].
    rewrite !opt_eq_map; [reflexivity|..]; intros x y I J; apply H; rewrite !in_app_iff; auto.
  Qed.
  Lemma flat_eq_map : forall A (vals : A -> list val) (e : A -> A -> res bool) (h : A -> A) l m,
    (forall p q, agree (vals p) (vals q) -> e (h p) (h q) = e p q) -> agree (flat_map vals l) (flat_map vals m) ->
    list_eq e (map h l) (map h m) = list_eq e l m.
  Proof. intros A vals e h l m H F. apply list_eq_map. intros p q I J. apply H. intros x y X Y. apply F; apply in_flat_map; eauto. Qed.
  Lemma ords_eq_map : forall l m : list (val * sortd), agree (map fst l) (map fst m) ->
    list_eq (ord_eq f) (map (fst_map g) l) (map (fst_map g) m) = list_eq (ord_eq f) l m.
  Proof. intros l m H. apply list_eq_map. intros p q I J. apply ord_eq_map. intros x y [<-|[]] [<-|[]]. apply H; now apply in_map. Qed.
  Lemma sel_eq_map : forall p q, agree (sel_vals p) (sel_vals q) -> sel_eq f (sel_map g p) (sel_map g q) = sel_eq f p q.
  Proof.
    intros [op c t w gr h o l out fu] [op' c' t' w' gr' h' o' l' out' fu'] H. unfold sel_vals in H.
    cbn [s_cols s_tabs s_where s_group s_having s_order s_out] in H. cbn [sel_eq sel_map].
    assert (G : forall a b, (forall x, In x a -> In x (flat_map pair_vals c ++ flat_map table_vals t ++ w ++ map fst gr ++ h ++ map fst o ++ out_vals out)) ->
                 (forall x, In x b -> In x (flat_map pair_vals c' ++ flat_map table_vals t' ++ w' ++ map fst gr' ++ h' ++ map fst o' ++ out_vals out')) -> agree a b).
    { intros a b A B x y I J. apply H; auto. }
    rewrite (flat_eq_map _ _ _ _ c c' pair_eq_map) by (apply G; intros x I; rewrite !in_app_iff; auto 10).
    rewrite (flat_eq_map _ _ _ _ t t' table_eq_map) by (apply G; intros x I; rewrite !in_app_iff; auto 10).
    rewrite (ords_eq_map gr gr') by (apply G; intros x I; rewrite !in_app_iff; auto 10).
    rewrite (ords_eq_map o o') by (apply G; intros x I; rewrite !in_app_iff; auto 10).
    rewrite (out_eq_map out out') by (apply G; intros x I; rewrite !in_app_iff; auto 10).
    rewrite (list_eq_map _ f g h h') by (apply G; intros x I; rewrite !in_app_iff; auto 10).
    rewrite (list_eq_map _ f g w w') by (apply G; intros x I; rewrite !in_app_iff; auto 10). reflexivity.
  Qed.
  Lemma ins_eq_map : forall p q, agree (ins_vals p) (ins_vals q) -> ins_eq f (ins_map g p) (ins_map g q) = ins_eq f p q.
  Proof.
    intros [rp ig t rows dup cf upd] [rp' ig' t' rows' dup' cf' upd'] H. unfold ins_vals in H. cbn [i_tabs i_rows i_dup i_upd] in H. cbn [ins_eq ins_map].
    rewrite (flat_eq_map _ _ _ _ t t' table_eq_map) by (intros x y I J; apply H; rewrite !in_app_iff; auto 10).
    rewrite (list_eq_map _ f g upd upd') by (intros x y I J; apply H; rewrite !in_app_iff; auto 10).
    rewrite (list_eq_map _ f g dup dup') by (intros x y I J; apply H; rewrite !in_app_iff; auto 10).
    rewrite (list_eq_map _ (list_eq f) (map g) rows rows'); [reflexivity|].
    intros a b I J. apply list_eq_map. intros x y X Y. apply H; rewrite !in_app_iff; right; left; apply in_concat; eauto.
  Qed.
  Lemma upd_eq_map : forall p q, agree (upd_vals p) (upd_vals q) -> upd_eq f (upd_map g p) (upd_map g q) = upd_eq f p q.
  Proof.
    intros [ig t v w al] [ig' t' v' w' al'] H. unfold upd_vals in H. cbn [u_tabs u_vals u_where] in H. cbn [upd_eq upd_map].
    rewrite (flat_eq_map _ _ _ _ t t' table_eq_map) by (intros x y I J; apply H; rewrite !in_app_iff; auto 10).
    rewrite (list_eq_map _ f g v v') by (intros x y I J; apply H; rewrite !in_app_iff; auto 10).
    rewrite (list_eq_map _ f g w w') by (intros x y I J; apply H; rewrite !in_app_iff; auto 10). reflexivity.
  Qed.
  Lemma del_eq_map : forall p q, agree (del_vals p) (del_vals q) -> del_eq f (del_map g p) (del_map g q) = del_eq f p q.
  Proof.
    intros [ig t v w al] [ig' t' v' w' al'] H. unfold del_vals in H. cbn [d_tabs d_refs d_where] in H. cbn [del_eq del_map].
    rewrite (flat_eq_map _ _ _ _ t t' table_eq_map) by (intros x y I J; apply H; rewrite !in_app_iff; auto 10).
    rewrite (flat_eq_map _ _ _ _ v v' table_eq_map) by (intros x y I J; apply H; rewrite !in_app_iff; auto 10).
    rewrite (list_eq_map _ f g w w') by (intros x y I J; apply H; rewrite !in_app_iff; auto 10). reflexivity.
  Qed.
End EqMap.

Definition composite (v : val) : bool :=
  match v with VCond _ _ _ _ | VValue _ _ | VConds _ | VSelect _ | VUnion _ _ _ | VInsert _ | VUpdate _ | VDelete _ => true | _ => false end.
Section CanonEq.
  Context (E : env).
  Notation r := (text E).
  Notation can := (canon E).
  Definition shown_to (n : nat) : Prop := forall v, (depth v < n)%nat -> r (can v) = r v.
  Lemma other_false : forall w b, textual_eq b = true -> textual_eq w = false -> (forall s, w <> VStr s) -> pyeq r w b = Ok false.
  Proof.
    intros w b Tb Tw Nw. destruct b; try discriminate Tb; clear Tb; destruct w; try discriminate Tw; try reflexivity;
      try (exfalso; eapply Nw; reflexivity); match goal with x : condk |- _ => destruct x end; reflexivity.
  Qed.
  Lemma data_composite : forall a b, textual_eq a = false -> composite a = false -> composite b = true -> pyeq r a b = Ok false.
  Proof. intros a b Ta Ca Cb. destruct b; try discriminate Cb; clear Cb; destruct a; try discriminate Ta; try discriminate Ca; reflexivity. Qed.
  Lemma composite_data : forall a b, composite a = true -> composite b = false -> pyeq r a b = Ok false.
  Proof. intros a b Ca Cb. destruct a; try discriminate Ca; clear Ca; destruct b; try discriminate Cb; try reflexivity; match goal with x : condk |- _ => destruct x end; reflexivity. Qed.
  Lemma canon_same : forall v, textual_eq v = false -> composite v = false -> can v = v.
  Proof. intros v T C. destruct v; try discriminate T; try discriminate C; reflexivity. Qed.
  Lemma canon_composite : forall v, composite (can v) = composite v.
  Proof.
    intros v. destruct (textual_eq v) eqn:T.
    - rewrite (canon_textual E v T). destruct (r v); destruct v; try discriminate T; reflexivity.
    - destruct v; try discriminate T; reflexivity.
  Qed.
  Lemma textual_left : forall v b, textual_eq v = true -> pyeq r v b =
    match b with VStr s => (do x <- r v; Ok (seqb x s)) | _ => if is_sql b then (do x <- r v; do y <- r b; Ok (seqb x y)) else Ok false end.
  Proof. intros v b T. destruct v; try discriminate T; reflexivity. Qed.
  Lemma str_left : forall s b, textual_eq b = true -> pyeq r (VStr s) b = (do y <- r b; Ok (seqb y s)).
  Proof. intros s b T. destruct b; try discriminate T; reflexivity. Qed.
  Lemma is_str : forall b, (exists s, b = VStr s) \/ (forall s, b <> VStr s).
  Proof. intros b. destruct b; try (right; discriminate). left. eauto. Qed.
  Lemma textual_left_other : forall v b, textual_eq v = true -> (forall s, b <> VStr s) -> pyeq r v b =
    if is_sql b then (do x <- r v; do y <- r b; Ok (seqb x y)) else Ok false.
  Proof. intros v b T N. rewrite textual_left by exact T. destruct b; try reflexivity. now destruct (N s). Qed.
  Lemma canon_eq : forall n, shown_to n -> forall a b, (depth a < n)%nat -> (depth b < n)%nat -> pyeq r (can a) (can b) = pyeq r a b.
  Proof.
    intros n T a. induction a as [a IH] using val_ind_children. intros b Da Db.
    assert (H : forall x y, In x (children a) -> In y (children b) -> pyeq r (can x) (can y) = pyeq r x y).
    { intros x y I J. apply IH; [exact I| |]; [apply children_depth in I|apply children_depth in J]; lia. }
    clear IH. pose proof (proj1 (canon_kind E a)) as Ka. pose proof (canon_kind E b) as [Kb [Sb _]].
    destruct (textual_eq a) eqn:Ta.
    - (* compared by text *)
      destruct (is_str b) as [[s ->]|N].
      + change (can (VStr s)) with (VStr s). rewrite !textual_left by assumption. now rewrite (T a Da).
      + assert (N' : forall s, can b <> VStr s) by (intros s Q; apply (N s); exact (proj1 (canon_str E b s) Q)).
        rewrite !textual_left_other by assumption. now rewrite Sb, (T a Da), (T b Db).
    - destruct (textual_eq b) eqn:Tb.
      + destruct (is_str a) as [[s ->]|N].
        * change (can (VStr s)) with (VStr s). rewrite !str_left by assumption. now rewrite (T b Db).
        * assert (N' : forall s, can a <> VStr s) by (intros s Q; apply (N s); exact (proj1 (canon_str E a s) Q)).
          now rewrite !other_false by assumption.
      + destruct (composite a) eqn:Ca; [destruct (composite b) eqn:Cb|].
        * clear Ka Kb Sb T Da Db.
          destruct a as [|u|z|x|x|s|u|d|d t|k l|l|i|s|w|w|k w|k c rr w|c w|ps|o a1 a2|ps|w|k d w|cs|cs os sp|w ty|q|t a1 a2|q|q|q]; try discriminate Ca;
            destruct b as [|u'|z'|x'|x'|s'|u'|d'|d' t'|k' l'|l'|i'|s'|w'|w'|k' w'|k' c' rr' w'|c' w'|ps'|o' a1' a2'|ps'|w'|k' d' w'|cs'|cs' os' sp'|w' ty'|q'|t' a1' a2'|q'|q'|q'];
            try discriminate Cb; clear Ta Tb Ca Cb; cbn [canon textual_eq]; try reflexivity; try (destruct k; reflexivity); cbn [children] in H.
          -- (* conditions *)
             destruct k, k'; cbn [pyeq textual_eq]; try reflexivity; rewrite !H by (cbn; auto); [reflexivity|].
             destruct (is_str w) as [[s ->]|N]; [reflexivity|].
             assert (N' : forall s, can w <> VStr s) by (intros s Q; apply (N s); exact (proj1 (canon_str E w s) Q)).
             assert (K : forall v (x y : res bool), (forall s, v <> VStr s) -> match v with VStr _ => x | _ => y end = y).
             { intros v x y Nv. destruct v; try reflexivity. now destruct (Nv s). }
             now rewrite !K by assumption.
          -- cbn [pyeq textual_eq]. rewrite !H by (cbn; auto). reflexivity.
          -- cbn [pyeq textual_eq]. apply list_eq_map. exact H.
          -- cbn [pyeq textual_eq]. apply sel_eq_map. exact H.
          -- cbn [pyeq textual_eq]. rewrite !H by (cbn; auto). reflexivity.
          -- cbn [pyeq textual_eq]. apply ins_eq_map. exact H.
          -- cbn [pyeq textual_eq]. apply upd_eq_map. exact H.
          -- cbn [pyeq textual_eq]. apply del_eq_map. exact H.
        * rewrite !composite_data; try assumption; [reflexivity| |]; now rewrite canon_composite.
        * rewrite (canon_same a Ta Ca). destruct (composite b) eqn:Cb.
          -- rewrite !data_composite; try assumption; [reflexivity|]. now rewrite canon_composite.
          -- now rewrite (canon_same b Tb Cb).
  Qed.
End CanonEq.

(** ** The text *)
Lemma mapM_map : forall A B (f : A -> res B) (h : A -> A) l, (forall x, In x l -> f (h x) = f x) -> mapM f (map h l) = mapM f l.
Proof.
  intros A B f h l H. induction l as [|x l IH]; [reflexivity|]. cbn [map mapM]. rewrite (H x) by (now left). rewrite IH; [reflexivity|].
  intros y I. apply H. now right.
Qed.
Lemma is_nilb_map : forall A B (h : A -> B) l, is_nilb (map h l) = is_nilb l.
Proof. intros A B h [|x l]; reflexivity. Qed.
Section CanonText.
  Context (E : env).
  Notation r := (text E).
  Notation can := (canon E).
  Section Below.
    Context (n : nat) (T : shown_to E n).
    Lemma aliased_map : forall p, (depth (fst p) < n)%nat -> (depth (snd p) < n)%nat -> aliased_str E r (pair_map can p) = aliased_str E r p.
    Proof.
      intros [a b] A B. cbn [fst snd pair_map] in *. cbn [aliased_str]. rewrite (proj2 (proj2 (canon_kind E b))), !canon_ref by now apply T. reflexivity.
    Qed.
    Definition below (l : list val) : Prop := forall x, In x l -> (depth x < n)%nat.
    Lemma below_app : forall l m, below (l ++ m) <-> below l /\ below m.
    Proof.
      intros l m. unfold below. split.
      - intros H. split; intros x I; apply H; apply in_or_app; auto.
      - intros [A B] x I. apply in_app_or in I. destruct I; auto.
    Qed.
    Lemma columns_map : forall c, below (flat_map pair_vals c) -> columns_str E r (map (pair_map can) c) = columns_str E r c.
    Proof.
      intros c B. unfold columns_str. rewrite mapM_map; [reflexivity|]. intros p I. apply aliased_map; apply B; apply in_flat_map; exists p; cbn; auto.
    Qed.
    Lemma orders_map : forall kw (os : list (val * sortd)), below (map fst os) -> orders_str E r kw (map (fst_map can) os) = orders_str E r kw os.
    Proof.
      intros kw os B. unfold orders_str. rewrite mapM_map; [reflexivity|]. intros [c d] I.
      assert (D : (depth c < n)%nat) by (apply B; exact (in_map fst _ _ I)). destruct d; cbn [order_str fst_map]; now rewrite canon_ref by now apply T.
    Qed.
    Lemma conds_map : forall kw ps, below ps -> conds_str r kw (map can ps) = conds_str r kw ps.
    Proof. intros kw ps B. unfold conds_str. rewrite mapM_map; [reflexivity|]. intros p I. now apply T, B. Qed.
    Lemma values_map : forall kw ps, below ps -> values_str r kw (map can ps) = values_str r kw ps.
    Proof. intros kw ps B. unfold values_str. rewrite mapM_map; [reflexivity|]. intros p I. now apply T, B. Qed.
    Lemma join_str_map : forall j, below (join_vals j) -> join_str E r (join_map can j) = join_str E r j.
    Proof.
      intros [t nm a o] B. unfold join_vals in B. cbn [j_name j_alias j_ons] in B. unfold join_str. cbn [join_map j_name j_alias j_ons j_type].
      rewrite is_nilb_map, conds_map by (intros x I; apply B; cbn; auto).
      change (can nm, can a) with (pair_map can (nm, a)). rewrite (aliased_map (nm, a)) by (apply B; cbn; auto). reflexivity.
    Qed.
    Lemma same_join_map : forall a b, below (join_vals a) -> below (join_vals b) -> same_join r (join_map can a) (join_map can b) = same_join r a b.
    Proof.
      intros [t nm a o] [t' nm' a' o'] A B. unfold join_vals in A, B. cbn [j_name j_alias j_ons] in A, B. unfold same_join. cbn [join_map j_name j_alias j_ons].
      rewrite !(canon_eq E n T) by (first [solve [apply A; cbn; auto]|solve [apply B; cbn; auto]]). rewrite (list_eq_map _ (pyeq r) can); [reflexivity|].
      intros x y I J. apply (canon_eq E n T); [apply A|apply B]; cbn; auto.
    Qed.
    Definition group_map (g : jgroup) : jgroup := match g with (h, t) => (join_map can h, map (join_map can) t) end.
    Lemma group_add_map : forall j gs, below (join_vals j) -> (forall g, In g gs -> below (join_vals (fst g))) ->
      group_add r (join_map can j) (map group_map gs) = match group_add r j gs with Ok gs' => Ok (map group_map gs') | Err e => Err e end.
    Proof.
      intros j gs B. induction gs as [|[h t] gs IH]; intros G; [reflexivity|]. cbn [map group_map group_add].
      rewrite same_join_map by (try exact B; apply (G (h, t)); now left). destruct (same_join r h j) as [[]|]; [|rewrite IH|reflexivity].
      - cbn [map group_map]. now rewrite map_app.
      - destruct (group_add r j gs); reflexivity.
      - intros g I. apply G. now right.
    Qed.
    Lemma group_add_below : forall j gs gs', group_add r j gs = Ok gs' -> below (join_vals j) -> (forall g, In g gs -> below (join_vals (fst g))) ->
      forall g, In g gs' -> below (join_vals (fst g)).
    Proof.
      intros j gs. induction gs as [|[h t] gs IH]; intros gs' Q B G g I; cbn [group_add] in Q.
      - injection Q as <-. destruct I as [<-|[]]. exact B.
      - destruct (same_join r h j) as [[]|]; try discriminate.
        + injection Q as <-. destruct I as [<-|I]; [apply (G (h, t)); now left|apply G; now right].
        + destruct (group_add r j gs) as [gs2|] eqn:Q2; [|discriminate]. injection Q as <-. destruct I as [<-|I]; [apply (G (h, t)); now left|].
          refine (IH gs2 eq_refl B _ g I). intros g' I'. apply G. now right.
    Qed.
    Lemma group_joins_map : forall js gs, below (flat_map join_vals js) -> (forall g, In g gs -> below (join_vals (fst g))) ->
      group_joins r (map (join_map can) js) (map group_map gs) = match group_joins r js gs with Ok gs' => Ok (map group_map gs') | Err e => Err e end.
    Proof.
      induction js as [|j js IH]; intros gs B G; [reflexivity|]. cbn [flat_map] in B. apply below_app in B. destruct B as [Bj B]. cbn [map group_joins].
      rewrite group_add_map by assumption. destruct (group_add r j gs) as [gs'|] eqn:Q; [|reflexivity]. apply IH; [exact B|].
      exact (group_add_below _ _ _ Q Bj G).
    Qed.
    Lemma settle_map : forall g, settle_group (group_map g) = map (join_map can) (settle_group g).
    Proof.
      intros [h t]. assert (Ty : forall j, j_type (join_map can j) = j_type j) by (intros []; reflexivity).
      cbn [group_map settle_group]. rewrite is_nilb_map.
      assert (X : existsb is_inner (join_map can h :: map (join_map can) t) = existsb is_inner (h :: t)).
      { change (join_map can h :: map (join_map can) t) with (map (join_map can) (h :: t)). induction (h :: t) as [|j l IH]; [reflexivity|].
        cbn [map existsb]. rewrite IH. unfold is_inner at 1. now rewrite Ty. }
      assert (Y : forallb (fun j => jointy_eqb (j_type j) (j_type (join_map can h))) (join_map can h :: map (join_map can) t) =
                  forallb (fun j => jointy_eqb (j_type j) (j_type h)) (h :: t)).
      { rewrite Ty. change (join_map can h :: map (join_map can) t) with (map (join_map can) (h :: t)). generalize (j_type h). clear X. intros ty.
        induction (h :: t) as [|j l IH]; [reflexivity|]. cbn [map forallb]. rewrite Ty. f_equal. exact IH. }
      rewrite X, Y. destruct (negb (is_nilb t) && existsb is_inner (h :: t)); [destruct h; reflexivity|].
      destruct (negb (is_nilb t) && forallb _ (h :: t)); reflexivity.
    Qed.
    Lemma minimize_map : forall js, below (flat_map join_vals js) ->
      minimize r (map (join_map can) js) = match minimize r js with Ok l => Ok (map (join_map can) l) | Err e => Err e end.
    Proof.
      intros js B. unfold minimize.
      assert (H : forall (X Y : res (list jgroup)), X = match Y with Ok g => Ok (map group_map g) | Err e => Err e end ->
        (do gs <- X; Ok (flat_map settle_group gs)) = match (do gs <- Y; Ok (flat_map settle_group gs)) with Ok l => Ok (map (join_map can) l) | Err e => Err e end).
      { intros X [gs|e] ->; [|reflexivity]. cbn [bind]. f_equal. induction gs as [|g gs IH]; [reflexivity|]. cbn [map flat_map]. now rewrite settle_map, IH, map_app. }
      apply H. exact (group_joins_map js [] B ltac:(intros g [])).
    Qed.
    Lemma minimize_below : forall js l, below (flat_map join_vals js) -> minimize r js = Ok l -> below (flat_map join_vals l).
    Proof.
      intros js l B Q x I. apply in_flat_map in I. destruct I as [j [I J]].
      destruct (minimize_origin r js l Q j I) as [k [K1 K2]]. apply B. apply in_flat_map. exists k. split; [exact K1|].
      destruct K2 as [K2 [K3 [K4 _]]]. unfold join_vals in *. now rewrite <- K2, <- K3, <- K4.
    Qed.
    Lemma table_str_map : forall t, below (table_vals t) -> table_str E r (table_map can t) = table_str E r t.
    Proof.
      intros [nm a js] B. unfold table_vals in B. cbn [tb_name tb_alias tb_joins] in B. unfold table_str. cbn [table_map tb_name tb_alias tb_joins].
      change (can nm, can a) with (pair_map can (nm, a)). rewrite (aliased_map (nm, a)) by (apply B; cbn; auto). rewrite is_nilb_map.
      assert (BJ : below (flat_map join_vals js)) by (intros x I; apply B; right; now right).
      rewrite (minimize_map js BJ). destruct (minimize r js) as [l|] eqn:Q; [|reflexivity]. cbn [bind].
      rewrite mapM_map; [reflexivity|]. intros j I. apply join_str_map. intros x J. apply (minimize_below js l BJ Q). apply in_flat_map. eauto.
    Qed.
    Lemma tables_map : forall kw ts, below (flat_map table_vals ts) -> tables_str E r kw (map (table_map can) ts) = tables_str E r kw ts.
    Proof.
      intros kw ts B. unfold tables_str. rewrite mapM_map; [reflexivity|]. intros t I. apply table_str_map. intros x J. apply B. apply in_flat_map. eauto.
    Qed.
    Lemma out_opt_map : forall kw o, below (opt_vals o) -> out_opt E r kw (option_map can o) = out_opt E r kw o.
    Proof. intros kw [v|] B; [|reflexivity]. cbn [option_map out_opt]. rewrite canon_value; [reflexivity|]. apply T, B. now left. Qed.
    Lemma out_str_map : forall o, below (out_vals o) -> out_str E r (out_map can o) = out_str E r o /\ out_set (out_map can o) = out_set o.
    Proof.
      intros [a b c d] B. unfold out_vals in B. cbn [o_file o_fields o_lines o_encl] in B. rewrite !below_app in B. destruct B as [B1 [B2 [B3 B4]]].
      unfold out_str, out_set. cbn [out_map o_file o_fields o_lines o_encl]. rewrite !out_opt_map by assumption. split; [reflexivity|]. destruct a; reflexivity.
    Qed.
    Lemma select_map : forall q, below (sel_vals q) -> select_str E r (sel_map can q) = select_str E r q.
    Proof.
      intros [op c t w gr h o l out fu] B. unfold sel_vals in B. cbn [s_cols s_tabs s_where s_group s_having s_order s_out] in B. rewrite !below_app in B.
      destruct B as [B1 [B2 [B3 [B4 [B5 [B6 B7]]]]]]. unfold select_str. cbn [sel_map s_opts s_cols s_tabs s_where s_group s_having s_order s_out s_limit s_forupd].
      destruct (out_str_map out B7) as [O1 O2]. rewrite O1, O2, columns_map, !orders_map, !conds_map, tables_map, !is_nilb_map by assumption. reflexivity.
    Qed.
    Lemma part_column_map : forall p, part_column (can p) = part_column p.
    Proof.
      intros p. destruct (textual_eq p) eqn:Tp.
      - rewrite (canon_textual E p Tp). destruct (r p); destruct p; try discriminate Tp; reflexivity.
      - destruct p; try discriminate Tp; try reflexivity. cbn [canon textual_eq part_column].
        destruct (is_str p1) as [[s ->]|N]; [reflexivity|].
        assert (K : forall v x, (forall s, v <> VStr s) -> match v with VStr c => Ok c | _ => x end = x :> res str).
        { intros v x Nv. destruct v; try reflexivity. now destruct (Nv s). }
        rewrite (K (can p1)) by (intros s Q; apply (N s); exact (proj1 (canon_str E p1 s) Q)). now rewrite (K p1).
    Qed.
    Lemma row_value_map : forall row c, row_value (map can row) c = can (row_value row c).
    Proof.
      intros row c. unfold row_value. change VNone with (can VNone) at 1. generalize VNone. induction row as [|p row IH]; intros acc; [reflexivity|].
      cbn [map fold_left]. rewrite <- IH. f_equal. destruct (textual_eq p) eqn:Tp.
      - rewrite (canon_textual E p Tp). destruct (r p); destruct p; try discriminate Tp; reflexivity.
      - destruct p; try discriminate Tp; try reflexivity. cbn [canon textual_eq].
        destruct (is_str p1) as [[s ->]|N]; [change (can (VStr s)) with (VStr s); cbv beta iota; destruct (seqb c s); reflexivity|].
        assert (K : forall v (f : str -> val) x, (forall s, v <> VStr s) -> match v with VStr c => f c | _ => x end = x).
        { intros v f x Nv. destruct v; try reflexivity. now destruct (Nv s). }
        rewrite (K (can p1) (fun c' => if seqb c c' then can p2 else can acc)) by (intros s Q; apply (N s); exact (proj1 (canon_str E p1 s) Q)).
        now rewrite (K p1 (fun c' => if seqb c c' then p2 else acc)).
    Qed.
    Lemma row_value_depth : forall row c, below row -> row_value row c = VNone \/ (depth (row_value row c) < n)%nat.
    Proof.
      intros row c B. unfold row_value. assert (A : VNone = VNone \/ (depth VNone < n)%nat) by (now left). 
      assert (G : forall acc, acc = VNone \/ (depth acc < n)%nat -> let v := fold_left (fun acc p => match p with VValue (VStr c') v => if seqb c c' then v else acc | _ => acc end) row acc in v = VNone \/ (depth v < n)%nat);
        [|exact (G VNone A)]. clear A.
      induction row as [|p row IH]; intros acc A; [exact A|]. cbn [fold_left]. apply IH; [intros x I; apply B; now right|].
      assert (P : (depth p < n)%nat) by (apply B; now left).
      destruct p; try exact A. destruct p1; try exact A. destruct (seqb c s); [|exact A]. right.
      refine (Nat.lt_trans _ _ _ (children_depth _ p2 _) P). cbn; auto.
    Qed.
    Lemma rows_map : forall rows, below (List.concat rows) -> rows_str E r (map (map can) rows) = rows_str E r rows.
    Proof.
      intros rows B. unfold rows_str, all_columns. rewrite <- concat_map, mapM_map by (intros x _; apply part_column_map).
      destruct (mapM part_column (List.concat rows)) as [cs|]; [|reflexivity]. cbn [bind].
      rewrite mapM_map; [reflexivity|]. intros row I. unfold row_str.
      assert (Q : forall l, mapM (fun c => sqlvalue E r (row_value (map can row) c)) l = mapM (fun c => sqlvalue E r (row_value row c)) l).
      { intros l. induction l as [|c l IH]; [reflexivity|]. cbn [mapM]. rewrite IH, row_value_map, canon_value; [reflexivity|].
        destruct (row_value_depth row c) as [->|D]; [intros x J; apply B; apply in_concat; eauto|reflexivity|]. now apply T. }
      now rewrite Q.
    Qed.
    Lemma insert_map : forall q, below (ins_vals q) -> insert_str E r (ins_map can q) = insert_str E r q.
    Proof.
      intros [rp ig t rows dup cf upd] B. unfold ins_vals in B. cbn [i_tabs i_rows i_dup i_upd] in B. rewrite !below_app in B. destruct B as [B1 [B2 [B3 B4]]].
      unfold insert_str. cbn [ins_map i_tabs i_rows i_dup i_upd i_ignore i_replace i_conflict]. rewrite !values_map, tables_map, rows_map, !is_nilb_map by assumption. reflexivity.
    Qed.
    Lemma update_map : forall q, below (upd_vals q) -> update_str E r (upd_map can q) = update_str E r q.
    Proof.
      intros [ig t v w al] B. unfold upd_vals in B. cbn [u_tabs u_vals u_where] in B. rewrite !below_app in B. destruct B as [B1 [B2 B3]].
      unfold update_str. cbn [upd_map u_tabs u_vals u_where u_ignore u_allow]. rewrite values_map, conds_map, tables_map, !is_nilb_map by assumption. reflexivity.
    Qed.
    Lemma delete_map : forall q, below (del_vals q) -> delete_str E r (del_map can q) = delete_str E r q.
    Proof.
      intros [ig t v w al] B. unfold del_vals in B. cbn [d_tabs d_refs d_where] in B. rewrite !below_app in B. destruct B as [B1 [B2 B3]].
      unfold delete_str. cbn [del_map d_tabs d_refs d_where d_ignore d_allow]. rewrite conds_map, !tables_map, !is_nilb_map by assumption. reflexivity.
    Qed.
    Lemma cond_map : forall k c rk x, (depth c < n)%nat -> (depth x < n)%nat ->
      fmt_condition (sqlref E r (can c)) rk (transformer E r k (can x)) (can x) = fmt_condition (sqlref E r c) rk (transformer E r k x) x.
    Proof.
      intros k c rk x Dc Dx. rewrite canon_ref by now apply T.
      assert (Q : (exists kk l, x = VSeq kk l) \/ (exists s, x = VStr s) \/ (forall kk l, x <> VSeq kk l) /\ forall s, x <> VStr s).
      { destruct x; try (right; right; split; discriminate); [right; left|left]; eauto. }
      destruct Q as [[kk [l ->]]|[[s ->]|[N1 N2]]]; [reflexivity|reflexivity|].
      assert (M1 : forall kk l, can x <> VSeq kk l).
      { intros kk l. destruct (textual_eq x) eqn:Tx.
        - rewrite (canon_textual E x Tx). destruct (r x); destruct x; try discriminate Tx; discriminate.
        - destruct x; try discriminate Tx; try discriminate. now destruct (N1 k0 l0). }
      assert (M2 : forall s, can x <> VStr s) by (intros s Q; apply (N2 s); exact (proj1 (canon_str E x s) Q)).
      assert (Tr : forall v, (forall s, v <> VStr s) -> transformer E r k v = sqlvalue E r).
      { intros v Nv. destruct k; [reflexivity|]. destruct v; try reflexivity. now destruct (Nv s). }
      rewrite !Tr by assumption.
      assert (F : forall v, (forall kk l, v <> VSeq kk l) -> fmt_condition (sqlref E r c) rk (sqlvalue E r) v = fmt_plain (sqlref E r c) rk (sqlvalue E r v)).
      { intros v Nv. destruct rk; cbn [fmt_condition]; try reflexivity; destruct v; try reflexivity; now destruct (Nv k0 l). }
      rewrite !F by assumption. now rewrite canon_value by now apply T.
    Qed.
  End Below.
  Lemma canon_text : forall v, r (can v) = r v.
  Proof.
    assert (G : forall n v, (depth v <= n)%nat -> r (can v) = r v).
    { induction n as [|n IH]; intros v D; [pose proof (depth_pos v); lia|].
      assert (T : shown_to E (depth v)) by (intros x Dx; apply IH; lia).
      assert (B : below (depth v) (children v)) by (intros x I; now apply children_depth).
      destruct (textual_eq v) eqn:Tv; [now apply textual_text|]. destruct (composite v) eqn:Cv; [|now rewrite (canon_same E v Tv Cv)].
      rewrite (text_unfold E (can v)), (text_unfold E v).
      destruct v as [|u|z|x|x|s|u|d|d t|k l|l|i|s|w|w|k w|k c rr w|c w|ps|o a1 a2|ps|w|k d w|cs|cs os sp|w ty|q|t a1 a2|q|q|q]; try discriminate Cv; clear Tv Cv;
        cbn [canon textual_eq str_body]; set (m := depth _) in *; cbn [children] in B.
      - apply (cond_map m T); apply B; cbn; auto.
      - unfold value_str. rewrite canon_ref, canon_value; [reflexivity| |]; apply T, B; cbn; auto.
      - apply (conds_map m T). exact B.
      - apply (select_map m T). exact B.
      - rewrite !T by (apply B; cbn; auto). reflexivity.
      - apply (insert_map m T). exact B.
      - apply (update_map m T). exact B.
      - apply (delete_map m T). exact B. }
    intros v. exact (G (depth v) v (le_n _)).
  Qed.
End CanonText.

(** ** Equal objects *)
Section SameMap.
  Context (f : val -> val -> res bool) (g : val -> val).
  Definition meets (l m : list val) : Prop := forall x y, In x l -> In y m -> f x y = Ok true -> g x = g y.
  Lemma list_meets : forall A (eq : A -> A -> res bool) (h : A -> A) l m, (forall x y, In x l -> In y m -> eq x y = Ok true -> h x = h y) ->
    list_eq eq l m = Ok true -> map h l = map h m.
  Proof.
    intros A eq h l m H. unfold list_eq. destruct (Nat.eqb _ _) eqn:L; [|discriminate]. apply Nat.eqb_eq in L. revert m H L.
    induction l as [|a l IH]; intros [|b m] H L Q; try discriminate; [reflexivity|]. cbn [all2] in Q. apply rand_true in Q. destruct Q as [Q1 Q2]. cbn [map].
    f_equal; [apply H; [now left|now left|exact Q1]|]. apply IH; [|now injection L|exact Q2]. intros x y I J. apply H; now right.
  Qed.
  Lemma pair_meets : forall p q, meets (pair_vals p) (pair_vals q) -> pair_eq f p q = Ok true -> pair_map g p = pair_map g q.
  Proof. intros [a b] [c d] H Q. cbn [pair_eq] in Q. apply rand_true in Q. destruct Q. cbn [pair_map]. f_equal; apply H; cbn; auto. Qed.
  Lemma ord_meets : forall p q : val * sortd, meets [fst p] [fst q] -> ord_eq f p q = Ok true -> fst_map g p = fst_map g q.
  Proof.
    intros [a b] [c d] H Q. cbn [ord_eq] in Q. apply rand_true in Q. destruct Q as [Q R]. cbn [fst_map]. f_equal; [apply H; cbn; auto|].
    destruct b, d; try discriminate; reflexivity.
  Qed.
  Lemma join_meets : forall p q, meets (join_vals p) (join_vals q) -> join_eq f p q = Ok true -> join_map g p = join_map g q.
  Proof.
    intros [t n a o] [t' n' a' o'] H Q. unfold join_vals in H. cbn [j_name j_alias j_ons] in H. cbn [join_eq] in Q.
    apply rand_true in Q. destruct Q as [Q1 Q]. apply rand_true in Q. destruct Q as [Q Q4]. apply rand_true in Q. destruct Q as [Q2 Q3]. cbn [join_map].
    f_equal; [destruct t, t'; try discriminate; reflexivity| | |]; [apply H; cbn; auto|apply H; cbn; auto|].
    revert Q4. apply list_meets. intros x y I J. apply H; cbn; auto.
  Qed.
  Lemma table_meets : forall p q, meets (table_vals p) (table_vals q) -> table_eq f p q = Ok true -> table_map g p = table_map g q.
  Proof.
    intros [n a js] [n' a' js'] H Q. unfold table_vals in H. cbn [tb_name tb_alias tb_joins] in H. cbn [table_eq] in Q.
    apply rand_true in Q. destruct Q as [Q1 Q]. apply rand_true in Q. destruct Q as [Q2 Q3]. cbn [table_map].
    f_equal; [apply H; cbn; auto|apply H; cbn; auto|]. revert Q3. apply list_meets. intros x y I J. apply join_meets.
    intros u v U V. apply H; right; right; apply in_flat_map; eauto.
  Qed.
  Lemma opt_meets : forall p q : option val, meets (opt_vals p) (opt_vals q) -> opt_eq f p q = Ok true -> option_map g p = option_map g q.
  Proof. intros [x|] [y|] H Q; cbn [opt_eq] in Q; try discriminate; [|reflexivity]. cbn [option_map]. f_equal. apply H; cbn; auto. Qed.
  Lemma out_meets : forall p q, meets (out_vals p) (out_vals q) -> out_eq f p q = Ok true -> out_map g p = out_map g q.
  Proof.
    intros [a b c d] [a' b' c' d'] H Q. unfold out_vals in H. cbn [o_file o_fields o_lines o_encl] in H. cbn [out_eq] in Q.
    apply rand_true in Q. destruct Q as [Q1 Q]. apply rand_true in Q. destruct Q as [Q2 Q]. apply rand_true in Q. destruct Q as [Q3 Q4]. cbn [out_map].
    f_equal; apply opt_meets; try assumption; intros x y I J; apply H; rewrite !in_app_iff; auto.
  Qed.
  Lemma flat_meets : forall A (vals : A -> list val) (eq : A -> A -> res bool) (h : A -> A) l m,
    (forall p q, meets (vals p) (vals q) -> eq p q = Ok true -> h p = h q) -> meets (flat_map vals l) (flat_map vals m) -> list_eq eq l m = Ok true -> map h l = map h m.
  Proof. intros A vals eq h l m H F. apply list_meets. intros p q I J. apply H. intros x y X Y. apply F; apply in_flat_map; eauto. Qed.
  Lemma ords_meets : forall l m : list (val * sortd), meets (map fst l) (map fst m) -> list_eq (ord_eq f) l m = Ok true -> map (fst_map g) l = map (fst_map g) m.
  Proof. intros l m H. apply list_meets. intros p q I J. apply ord_meets. intros x y [<-|[]] [<-|[]]. apply H; now apply in_map. Qed.
  Lemma sel_meets : forall p q, meets (sel_vals p) (sel_vals q) -> sel_eq f p q = Ok true -> sel_map g p = sel_map g q.
  Proof.
    intros [op c t w gr h o l out fu] [op' c' t' w' gr' h' o' l' out' fu'] H Q. unfold sel_vals in H.
    cbn [s_cols s_tabs s_where s_group s_having s_order s_out] in H. cbn [sel_eq] in Q.
    assert (G : forall a b, (forall x, In x a -> In x (flat_map pair_vals c ++ flat_map table_vals t ++ w ++ map fst gr ++ h ++ map fst o ++ out_vals out)) ->
                 (forall x, In x b -> In x (flat_map pair_vals c' ++ flat_map table_vals t' ++ w' ++ map fst gr' ++ h' ++ map fst o' ++ out_vals out')) -> meets a b).
    { intros a b A B x y I J. apply H; auto. }
    apply rand_true in Q. destruct Q as [Q1 Q]. apply rand_true in Q. destruct Q as [Q2 Q]. apply rand_true in Q. destruct Q as [Q3 Q].
    apply rand_true in Q. destruct Q as [Q4 Q]. apply rand_true in Q. destruct Q as [Q5 Q]. apply rand_true in Q. destruct Q as [Q6 Q].
    apply rand_true in Q. destruct Q as [Q7 Q]. apply rand_true in Q. destruct Q as [Q8 Q]. apply rand_true in Q. destruct Q as [Q9 Q10].
    apply selopts_same in Q8. apply limits_same in Q5. apply bool_same in Q7.
    apply (flat_meets _ _ _ _ _ _ pair_meets) in Q1; [|apply G; intros x I; rewrite !in_app_iff; auto 10].
    apply (flat_meets _ _ _ _ _ _ table_meets) in Q9; [|apply G; intros x I; rewrite !in_app_iff; auto 10].
    apply ords_meets in Q2; [|apply G; intros x I; rewrite !in_app_iff; auto 10].
    apply ords_meets in Q6; [|apply G; intros x I; rewrite !in_app_iff; auto 10].
    apply out_meets in Q4; [|apply G; intros x I; rewrite !in_app_iff; auto 10].
    apply (list_meets _ f g) in Q3; [|apply G; intros x I; rewrite !in_app_iff; auto 10].
    apply (list_meets _ f g) in Q10; [|apply G; intros x I; rewrite !in_app_iff; auto 10]. cbn [sel_map]. congruence.
  Qed.
  Lemma ins_meets : forall p q, meets (ins_vals p) (ins_vals q) -> i_conflict p = i_conflict q -> ins_eq f p q = Ok true -> ins_map g p = ins_map g q.
  Proof.
    intros [rp ig t rows dup cf upd] [rp' ig' t' rows' dup' cf' upd'] H C Q. unfold ins_vals in H. cbn [i_tabs i_rows i_dup i_upd i_conflict] in H, C. cbn [ins_eq] in Q.
    apply rand_true in Q. destruct Q as [Q1 Q]. apply rand_true in Q. destruct Q as [Q2 Q]. apply rand_true in Q. destruct Q as [Q3 Q].
    apply rand_true in Q. destruct Q as [Q4 Q]. apply rand_true in Q. destruct Q as [Q5 Q6]. apply bool_same in Q1, Q2.
    apply (list_meets _ f g) in Q3; [|intros x y I J; apply H; rewrite !in_app_iff; auto 10].
    apply (list_meets _ f g) in Q4; [|intros x y I J; apply H; rewrite !in_app_iff; auto 10].
    apply (flat_meets _ _ _ _ _ _ table_meets) in Q5; [|intros x y I J; apply H; rewrite !in_app_iff; auto 10].
    apply (list_meets _ (list_eq f) (map g)) in Q6; [cbn [ins_map]; congruence|].
    intros a b I J. apply list_meets. intros x y X Y. apply H; rewrite !in_app_iff; right; left; apply in_concat; eauto.
  Qed.
  Lemma upd_meets : forall p q, meets (upd_vals p) (upd_vals q) -> u_allow p = u_allow q -> upd_eq f p q = Ok true -> upd_map g p = upd_map g q.
  Proof.
    intros [ig t v w al] [ig' t' v' w' al'] H C Q. unfold upd_vals in H. cbn [u_tabs u_vals u_where u_allow] in H, C. cbn [upd_eq] in Q.
    apply rand_true in Q. destruct Q as [Q1 Q]. apply rand_true in Q. destruct Q as [Q2 Q]. apply rand_true in Q. destruct Q as [Q3 Q4].
    apply bool_same in Q2. apply (flat_meets _ _ _ _ _ _ table_meets) in Q1; [|intros x y I J; apply H; rewrite !in_app_iff; auto 10].
    apply (list_meets _ f g) in Q3; [|intros x y I J; apply H; rewrite !in_app_iff; auto 10].
    apply (list_meets _ f g) in Q4; [|intros x y I J; apply H; rewrite !in_app_iff; auto 10]. cbn [upd_map]. congruence.
  Qed.
  Lemma del_meets : forall p q, meets (del_vals p) (del_vals q) -> d_allow p = d_allow q -> del_eq f p q = Ok true -> del_map g p = del_map g q.
  Proof.
    intros [ig t v w al] [ig' t' v' w' al'] H C Q. unfold del_vals in H. cbn [d_tabs d_refs d_where d_allow] in H, C. cbn [del_eq] in Q.
    apply rand_true in Q. destruct Q as [Q1 Q]. apply rand_true in Q. destruct Q as [Q2 Q]. apply rand_true in Q. destruct Q as [Q3 Q4].
    apply bool_same in Q1. apply (flat_meets _ _ _ _ _ _ table_meets) in Q2; [|intros x y I J; apply H; rewrite !in_app_iff; auto 10].
    apply (flat_meets _ _ _ _ _ _ table_meets) in Q3; [|intros x y I J; apply H; rewrite !in_app_iff; auto 10].
    apply (list_meets _ f g) in Q4; [|intros x y I J; apply H; rewrite !in_app_iff; auto 10]. cbn [del_map]. congruence.
  Qed.
End SameMap.

Section Equal.
  Context (E : env) (P : val -> Prop).
  Notation r := (text E).
  Notation can := (canon E).
  Hypothesis Pchild : forall v x, P v -> textual_eq v = false -> In x (children v) -> P x.
  Hypothesis Pclash : forall u w, P u -> P w -> ~ confusable E u w.
  Hypothesis Pmirror : forall p q, P p -> P q -> mirrored E p q -> p = q.
  (** An object compared by text equals only such objects, with the same text. *)
  Lemma textual_same : forall a b, textual_eq a = true \/ textual_eq b = true -> P a -> P b -> pyeq r a b = Ok true -> can a = can b.
  Proof.
    intros a b T Pa Pb Q. destruct (textual_eq a) eqn:Ta.
    - destruct (is_str b) as [[s ->]|N].
      + rewrite textual_left in Q by exact Ta. destruct (r a) as [t|] eqn:R; [|discriminate]. cbn [bind] in Q. injection Q as Q. apply seqb_eq in Q. subst s.
        exfalso. apply (Pclash a (VStr t) Pa Pb). split; [exact Ta|]. split; [reflexivity|]. exists t. auto.
      + rewrite textual_left_other in Q by assumption. destruct (is_sql b) eqn:Sb; [|discriminate].
        destruct (r a) as [t|] eqn:R; [|discriminate]. destruct (r b) as [t'|] eqn:R'; [|discriminate]. cbn [bind] in Q. injection Q as Q. apply seqb_eq in Q. subst t'.
        destruct (textual_eq b) eqn:Tb.
        * rewrite (canon_textual E a Ta), (canon_textual E b Tb), R, R'. reflexivity.
        * exfalso. apply (Pclash a b Pa Pb). split; [exact Ta|]. split; [exact Tb|]. exists t. auto.
    - destruct T as [T|Tb]; [discriminate|]. destruct (is_str a) as [[s ->]|N].
      + rewrite str_left in Q by exact Tb. destruct (r b) as [t|] eqn:R; [|discriminate]. cbn [bind] in Q. injection Q as Q. apply seqb_eq in Q. subst s.
        exfalso. apply (Pclash b (VStr t) Pb Pa). split; [exact Tb|]. split; [reflexivity|]. exists t. auto.
      + rewrite other_false in Q by assumption. discriminate.
  Qed.
  Lemma composite_same : forall a b, P a -> P b -> composite a = true -> same_rest a b ->
    (forall x y, In x (children a) -> In y (children b) -> pyeq r x y = Ok true -> can x = can y) -> pyeq r a b = Ok true -> can a = can b.
  Proof.
    intros a b Pa Pb Ca S H Q. destruct (textual_eq b) eqn:Tb; [apply textual_same; auto|].
    destruct (composite b) eqn:Cb; [|rewrite composite_data in Q by assumption; discriminate].
    destruct a as [|u|z|x|x|s|u|d|d t|k l|l|i|s|w|w|k w|k c rr w|c w|ps|o a1 a2|ps|w|k d w|cs|cs os sp|w ty|q|t a1 a2|q|q|q]; try discriminate Ca;
      destruct b as [|u'|z'|x'|x'|s'|u'|d'|d' t'|k' l'|l'|i'|s'|w'|w'|k' w'|k' c' rr' w'|c' w'|ps'|o' a1' a2'|ps'|w'|k' d' w'|cs'|cs' os' sp'|w' ty'|q'|t' a1' a2'|q'|q'|q'];
      try discriminate Cb; clear Tb Ca Cb; try discriminate Q; try (destruct k; discriminate Q); cbn [children] in H; cbn [same_rest] in S.
    - assert (D : forall (x y z : res bool), rand x (rand y z) = Ok true -> x = Ok true /\ y = Ok true /\ z = Ok true).
      { intros x y z X. apply rand_true in X. destruct X as [X1 X]. apply rand_true in X. tauto. }
      assert (K : pyeq r c c' = Ok true /\ pyeq r w w' = Ok true /\ Ok (relk_eqb rr rr') = Ok true -> k = k' -> can (VCond k c rr w) = can (VCond k' c' rr' w')).
      { intros [Q1 [Q2 Q3]] <-. injection Q3 as Q3. apply relk_eqb_eq in Q3. subst rr'. cbn [canon textual_eq].
        rewrite (H c c'), (H w w') by (cbn; auto). reflexivity. }
      destruct k, k'; cbn [pyeq textual_eq] in Q; try discriminate Q; [apply K; [now apply D|reflexivity]|].
      unfold ror in Q. destruct (rand (pyeq r c c') (rand (pyeq r w w') (Ok (relk_eqb rr rr')))) as [[]|] eqn:Q1; [apply K; [now apply D|reflexivity]| |discriminate].
      destruct (is_str w) as [[s ->]|N].
      + apply D in Q. destruct Q as [Q2 [Q3 Q4]].
        assert (X : c' = VStr s).
        { destruct (is_str c') as [[s' ->]|N]; [cbn [pyeq textual_eq] in Q2; injection Q2 as Q2; apply seqb_eq in Q2; congruence|].
          exfalso. destruct (textual_eq c') eqn:Tc.
          - rewrite str_left in Q2 by exact Tc. destruct (r c') as [t|] eqn:R; [|discriminate]. cbn [bind] in Q2. injection Q2 as Q2. apply seqb_eq in Q2. subst s.
            apply (Pclash c' (VStr t)); [refine (Pchild _ _ Pb eq_refl _); cbn; auto|refine (Pchild _ _ Pa eq_refl _); cbn; auto|].
            split; [exact Tc|]. split; [reflexivity|]. exists t. auto.
          - destruct c'; try discriminate Tc; try discriminate Q2. now destruct (N s0). }
        subst c'. f_equal. apply Pmirror; [exact Pa|exact Pb|]. exists c, rr, s, w', rr'. split; [reflexivity|]. split; [reflexivity|]. split; [|exact Q3].
        apply mirror_revert. now injection Q4.
      + exfalso. destruct w; try discriminate Q. now destruct (N s).
    - cbn [pyeq textual_eq] in Q. apply rand_true in Q. destruct Q as [Q1 Q2]. cbn [canon textual_eq]. f_equal; apply H; cbn; auto.
    - cbn [pyeq textual_eq] in Q. cbn [canon textual_eq]. f_equal. revert Q. apply list_meets. exact H.
    - cbn [pyeq textual_eq] in Q. cbn [canon textual_eq]. f_equal. revert Q. apply sel_meets. exact H.
    - cbn [pyeq textual_eq] in Q. apply rand_true in Q. destruct Q as [Q1 Q]. apply rand_true in Q. destruct Q as [Q2 Q3]. cbn [canon textual_eq].
      f_equal; [destruct t, t'; try discriminate; reflexivity|apply H; cbn; auto|apply H; cbn; auto].
    - cbn [pyeq textual_eq] in Q. cbn [canon textual_eq]. f_equal. revert S Q. apply ins_meets. exact H.
    - cbn [pyeq textual_eq] in Q. cbn [canon textual_eq]. f_equal. revert S Q. apply upd_meets. exact H.
    - cbn [pyeq textual_eq] in Q. cbn [canon textual_eq]. f_equal. revert S Q. apply del_meets. exact H.
  Qed.
End Equal.

Lemma steady_exact : forall v, steady v -> textual_eq v = false -> composite v = false -> exact v.
Proof.
  intros v S T C. destruct v; try discriminate T; try discriminate C; cbn [steady] in S; try (now destruct S); try exact S;
    (constructor; [reflexivity|intros x I; destruct I]).
Qed.
Lemma equal_canon : forall E (P : val -> Prop),
  (forall v x, P v -> textual_eq v = false -> In x (children v) -> P x) ->
  (forall v, P v -> steady v) ->
  (forall u w, P u -> P w -> ~ confusable E u w) ->
  (forall p q, P p -> P q -> mirrored E p q -> p = q) ->
  forall a b, P a -> P b -> py_eq E a b = Ok true -> canon E a = canon E b.
Proof.
  intros E P Pc Ps Pk Pm a. induction a as [a IH] using val_ind_children. intros b Pa Pb Q. unfold py_eq in *.
  destruct (textual_eq a) eqn:Ta; [apply (textual_same E P Pk a b); auto|].
  destruct (textual_eq b) eqn:Tb; [apply (textual_same E P Pk a b); auto|].
  destruct (composite a) eqn:Ca.
  - apply (composite_same E P Pc Pk Pm a b); auto.
    + specialize (Ps a Pa). destruct a; try exact Logic.I; destruct Ps.
    + intros x y I J. apply IH; [exact I|exact (Pc _ _ Pa Ta I)|exact (Pc _ _ Pb Tb J)].
  - destruct (composite b) eqn:Cb; [rewrite data_composite in Q by assumption; discriminate|]. f_equal.
    apply (exact_same (text E)); [apply steady_exact; auto|apply steady_exact; auto|exact Q].
Qed.
Lemma within_child : forall v w x, within v w -> textual_eq v = false -> In x (children v) -> within x w.
Proof.
  intros v w x W. induction W as [v|v y w T I W IH]; intros Tv J; [apply (wi_child x x); auto; apply wi_self|]. apply (wi_child x y); auto.
Qed.
Lemma inside_child : forall v w x, inside v w -> textual_eq v = false -> In x (children v) -> inside x w.
Proof. intros v w x [T [y [I W]]] Tv J. split; [exact T|]. exists y. split; [exact I|]. exact (within_child _ _ _ W Tv J). Qed.
Lemma inside_within : forall v w, inside v w -> within v w.
Proof. intros v w [T [y [I W]]]. exact (wi_child _ _ _ T I W). Qed.
Lemma equal_text_textual : forall E a b, textual_eq a = true \/ textual_eq b = true -> is_sql a = true -> is_sql b = true ->
  py_eq E a b = Ok true -> text E a = text E b.
Proof.
  intros E a b T Sa Sb Q. unfold py_eq in Q. assert (Na : forall s, a <> VStr s) by (intros s ->; discriminate). assert (Nb : forall s, b <> VStr s) by (intros s ->; discriminate).
  destruct (textual_eq a) eqn:Ta.
  - rewrite textual_left_other in Q by assumption. rewrite Sb in Q. destruct (text E a) as [t|]; [|discriminate]. destruct (text E b) as [t'|]; [|discriminate].
    cbn [bind] in Q. injection Q as Q. apply seqb_eq in Q. now subst.
  - destruct T as [T|Tb]; [discriminate|]. rewrite other_false in Q by assumption. discriminate.
Qed.
Lemma by_parts_composite : forall v, by_parts v <-> composite v = true.
Proof. intros v. split; destruct v; cbn; try tauto; discriminate. Qed.
Lemma composite_textual : forall v, composite v = true -> textual_eq v = false /\ is_sql v = true.
Proof. intros v C. destruct v; try discriminate C; auto. Qed.
Lemma equal_text : forall E a b, by_parts a \/ by_parts b -> distinguishable E a b -> same_rest a b -> py_eq E a b = Ok true -> text E a = text E b.
Proof.
  intros E a b C [D1 [D2 D3]] S Q. rewrite !by_parts_composite in C.
  set (W := fun v => within v a \/ within v b).
  destruct (textual_eq a) eqn:Ta.
  { destruct C as [C|C]; [apply composite_textual in C; destruct C; congruence|]. apply composite_textual in C. destruct C as [Tb Sb].
    apply equal_text_textual; auto. destruct a; try discriminate Ta; reflexivity. }
  rewrite <- (canon_text E a), <- (canon_text E b). f_equal.
  destruct (textual_eq b) eqn:Tb.
  { apply (textual_same E W D2 a b); [auto|left; apply wi_self|right; apply wi_self|exact Q]. }
  assert (Ca : composite a = true).
  { destruct (composite a) eqn:Ca; [reflexivity|]. destruct C as [C|C]; [discriminate|]. unfold py_eq in Q. rewrite data_composite in Q by assumption. discriminate. }
  apply (composite_same E W) with (a := a) (b := b); try assumption.
  - intros v x [V|V] T I; [left|right]; exact (within_child _ _ _ V T I).
  - left. apply wi_self.
  - right. apply wi_self.
  - intros x y I J. apply (equal_canon E (fun v => inside v a \/ inside v b)).
    + intros v z [V|V] T K; [left|right]; exact (inside_child _ _ _ V T K).
    + exact D1.
    + intros u w U V. apply D2; [destruct U|destruct V]; [left|right|left|right]; now apply inside_within.
    + intros p q U V. apply D3; [destruct U|destruct V]; [left|right|left|right]; now apply inside_within.
    + left. split; [exact Ta|]. exists x. split; [exact I|apply wi_self].
    + right. split; [exact Tb|]. exists y. split; [exact J|apply wi_self].
Qed.
Lemma mk_condition_cond : forall k c v x, mk_condition k c v = Ok x -> exists c' rr w, x = VCond k c' rr w.
Proof.
  intros k c v x M. unfold mk_condition in M. destruct (negb _); [discriminate|]. destruct (negb _); [discriminate|].
  destruct (match v with VRel _ _ => Ok v | _ => _ end) as [rel|]; [|discriminate]. cbn [bind] in M. destruct rel; try discriminate. injection M as <-. eauto.
Qed.
Lemma dropped_same_text : forall E k ps args kwds ps' asked, keys_ok args kwds ->
  (args = [] \/ forallb is_conds args = false) ->
  pair_args args kwds asked -> conds_where (pure_world E) k ps args kwds = (ps', Ok tt) ->
  forall c v x, In (c, v) asked -> mk_condition k c v = Ok x ->
  (forall p, In p ps' -> distinguishable E p x) -> exists p, In p ps' /\ text E p = text E x.
Proof.
  intros E k ps args kwds ps' asked K A P C c v x I M D.
  destruct (where_keeps_pairs _ _ _ _ _ _ _ K A P C c v I) as [y [My [p [Ip [->|Q]]]]].
  - exists y. split; [exact Ip|]. congruence.
  - assert (y = x) by congruence. subst y. exists p. split; [exact Ip|].
    destruct (mk_condition_cond _ _ _ _ M) as [c' [rr [w ->]]].
    apply equal_text; [right; exact Logic.I|now apply D|destruct p; exact Logic.I|exact Q].
Qed.

(** A list that holds an object and all its parts. *)
Lemma within_list : forall L a u, In a L -> (forall w, In w L -> textual_eq w = false -> forall x, In x (children w) -> In x L) -> within u a -> In u L.
Proof. intros L a u I C W. induction W as [v|v x w T J W IH]; [exact I|]. apply IH. exact (C w I T x J). Qed.
