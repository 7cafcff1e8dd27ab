(** C16: boolean structure of conditions. *)
From Verif Require Import Base Value Eq Render RenderFacts SpecLogic SpecConds BoolFacts.
Open Scope N_scope.

Definition atom_text (E : env) (v : val) : str := match text E v with Ok s => s | Err _ => [] end.

Lemma items_text_app : forall A (w : A -> str) a b, items_text w (a ++ b) = items_text w a ++ items_text w b.
Proof. intros. unfold items_text. apply flat_map_app. Qed.

(** What is proved by induction for one tree. *)
Definition good_term (E : env) (x : val) (t : str) (l : list (item val)) (e : bexp val) : Prop :=
  t = items_text (atom_text E) l /\ (forall a, In (IAtom a) l -> text E a = Ok (atom_text E a)) /\
  p_term l e /\ forall v, bval v e = meaning v x.

Lemma atoms_app : forall E l m, (forall a, In (IAtom a) l -> text E a = Ok (atom_text E a)) ->
  (forall a, In (IAtom a) m -> text E a = Ok (atom_text E a)) ->
  forall a, In (IAtom a) (l ++ m) -> text E a = Ok (atom_text E a).
Proof. intros E l m H1 H2 a H. apply in_app_or in H. destruct H; auto. Qed.
Lemma atoms_cons : forall E (i : item val) m, (forall a, i <> IAtom a) ->
  (forall a, In (IAtom a) m -> text E a = Ok (atom_text E a)) ->
  forall a, In (IAtom a) (i :: m) -> text E a = Ok (atom_text E a).
Proof. intros E i m H1 H2 a [H|H]; [now apply H1 in H|auto]. Qed.

Lemma atom_good : forall E x t, (forall v, meaning v x = v x) -> text E x = Ok t ->
  exists l e, good_term E x t l e.
Proof.
  intros E x t M H. exists [IAtom x], (BAtom x). unfold good_term.
  assert (Ht : atom_text E x = t) by (unfold atom_text; now rewrite H).
  split; [simpl; now rewrite app_nil_r|]. split.
  - intros a [Ha|[]]. injection Ha as ->. now rewrite Ht.
  - split; [repeat constructor|]. intros v. simpl. now rewrite M.
Qed.

Definition conj3 (v : val -> t3) (ps : list val) : t3 :=
  fold_right (fun p t => and3 (meaning v p) t) (Some true) ps.

(** An AND-list. *)
Lemma list_good : forall E ps ts, ps <> [] ->
  Forall (fun p => forall t, text E p = Ok t -> exists l e, good_term E p t l e) ps ->
  mapM (text E) ps = Ok ts ->
  exists l e, sjoin (lit " AND ") ts = items_text (atom_text E) l /\
    (forall a, In (IAtom a) l -> text E a = Ok (atom_text E a)) /\
    p_term l e /\ forall v, bval v e = conj3 v ps.
Proof.
  intros E ps. induction ps as [|p ps IH]; intros ts Hne HF Hm; [congruence|].
  simpl in Hm. destruct (text E p) as [t|] eqn:Ht; [|discriminate].
  destruct (mapM (text E) ps) as [ts'|] eqn:Hm'; [|discriminate]. injection Hm as <-.
  inversion HF as [|? ? Hp Hps]; subst. destruct (Hp t Ht) as [l [e [T [At [P M]]]]].
  destruct ps as [|p' ps'].
  - simpl in Hm'. injection Hm' as <-. exists l, e. split; [exact T|]. split; [exact At|]. split; [exact P|].
    intros v. rewrite M. unfold conj3. simpl. now rewrite and3_true_r.
  - destruct (IH ts' ltac:(discriminate) Hps eq_refl) as [l' [e' [T' [At' [P' M']]]]].
    destruct (term_and _ _ _ _ P P') as [g [Pg Mg]].
    exists (l ++ IAnd :: l'), g. split; [|split; [|split]].
    + destruct ts' as [|t' ts''].
      { exfalso. simpl in Hm'. destruct (text E p'); [|discriminate]. destruct (mapM (text E) ps'); discriminate. }
      rewrite items_text_app. cbn [items_text flat_map item_text]. fold (items_text (atom_text E) l').
      rewrite <- T', T. reflexivity.
    + apply atoms_app; [exact At|]. apply atoms_cons; [discriminate|exact At'].
    + exact Pg.
    + intros v. rewrite Mg, M, M'. reflexivity.
Qed.

Lemma paren_good : forall E (l : list (item val)) e, p_search l e ->
  (forall a, In (IAtom a) l -> text E a = Ok (atom_text E a)) ->
  p_primary (ILp :: l ++ [IRp]) e /\
  paren (items_text (atom_text E) l) = items_text (atom_text E) (ILp :: l ++ [IRp]) /\
  (forall a, In (IAtom a) (ILp :: l ++ [IRp]) -> text E a = Ok (atom_text E a)).
Proof.
  intros E l e P At. split; [now constructor|]. split.
  - unfold paren. cbn [items_text flat_map item_text]. fold (items_text (atom_text E) (l ++ [IRp])).
    rewrite items_text_app. reflexivity.
  - apply atoms_cons; [discriminate|]. apply atoms_app; [exact At|]. intros a [H|[]]. discriminate.
Qed.

(** A bracketed operand is again a term. *)
Lemma bracket_good : forall E x t l e, good_term E x t l e -> exists l' e', good_term E x (bracket x t) l' e'.
Proof.
  intros E x t l e [T [At [P M]]]. unfold bracket. destruct (needs_brackets x).
  - destruct (paren_good E l e (ps_one _ _ P) At) as [P' [T' At']].
    exists (ILp :: l ++ [IRp]), e. unfold good_term. rewrite T, T'. repeat split; auto.
    constructor. now constructor.
  - exists l, e. unfold good_term. auto.
Qed.

Lemma conds_ok : forall E ps t, ps <> [] -> conds_str (text E) [] ps = Ok t ->
  exists ts, mapM (text E) ps = Ok ts /\ t = sjoin (lit " AND ") ts.
Proof.
  intros E ps t Hne H. unfold conds_str in H. destruct (mapM (text E) ps) as [ts|] eqn:Hm; [|discriminate].
  cbn [bind] in H. injection H as <-. exists ts. split; [reflexivity|].
  destruct ts; [|reflexivity]. destruct ps; [congruence|]. simpl in Hm.
  destruct (text E v); [|discriminate]. destruct (mapM (text E) ps); discriminate.
Qed.

Fixpoint cond_tree_ind' (P : val -> Prop)
  (Hc : forall c r v, P (VCond KWhere c r v)) (He : forall v, P (VExists v))
  (Hq : forall ps, ps <> [] -> Forall P ps -> P (VConds ps))
  (Hb : forall o a b, P a -> P b -> P (VCoC o a b))
  (Hn : forall ps, ps <> [] -> Forall P ps -> P (VNot ps)) x (H : cond_tree x) {struct H} : P x :=
  let go := fix go ps (F : Forall cond_tree ps) {struct F} : Forall P ps :=
    match F with
    | Forall_nil _ => Forall_nil _
    | Forall_cons y Hy F' => Forall_cons y (cond_tree_ind' P Hc He Hq Hb Hn y Hy) (go _ F')
    end in
  match H with
  | ct_cond c r v => Hc c r v
  | ct_exists v => He v
  | ct_q ps N F => Hq ps N (go ps F)
  | ct_bin o a b Ha Hb' => Hb o a b (cond_tree_ind' P Hc He Hq Hb Hn a Ha) (cond_tree_ind' P Hc He Hq Hb Hn b Hb')
  | ct_not ps N F => Hn ps N (go ps F)
  end.

Lemma tree_good : forall E x, cond_tree x -> forall t, text E x = Ok t -> exists l e, good_term E x t l e.
Proof.
  intros E. refine (cond_tree_ind' _ _ _ _ _ _).
  - intros c r v t H. now apply atom_good.
  - intros v t H. now apply atom_good.
  - intros ps Hne HF t H. rewrite text_unfold in H. cbn [str_body] in H.
    destruct (conds_ok E ps t Hne H) as [ts [Hm ->]].
    destruct (list_good E ps ts Hne HF Hm) as [l [e [T [At [P M]]]]].
    exists l, e. unfold good_term. auto.
  - intros o a b IHa IHb t H. rewrite text_unfold in H. cbn [str_body] in H.
    destruct (text E a) as [x|] eqn:Ea; [|discriminate]. cbn [bind] in H.
    destruct (text E b) as [y|] eqn:Eb; [|discriminate]. cbn [bind] in H. injection H as <-.
    destruct (IHa x eq_refl) as [l1 [e1 G1]]. destruct (IHb y eq_refl) as [l2 [e2 G2]].
    apply bracket_good in G1. apply bracket_good in G2.
    destruct G1 as [m1 [f1 [T1 [A1 [P1 M1]]]]]. destruct G2 as [m2 [f2 [T2 [A2 [P2 M2]]]]].
    destruct o.
    + destruct (term_and _ _ _ _ P1 P2) as [g [Pg Mg]].
      assert (AA : forall c, In (IAtom c) (m1 ++ IAnd :: m2) -> text E c = Ok (atom_text E c))
        by (apply atoms_app; [exact A1|]; apply atoms_cons; [discriminate|exact A2]).
      destruct (paren_good E _ g (ps_one _ _ Pg) AA) as [P' [T' At']].
      exists (ILp :: (m1 ++ IAnd :: m2) ++ [IRp]), g. unfold good_term. split; [|split; [exact At'|split]].
      * rewrite <- T', T1, T2, items_text_app. reflexivity.
      * constructor. now constructor.
      * intros v. rewrite Mg, M1, M2. reflexivity.
    + assert (AA : forall c, In (IAtom c) (m1 ++ IOr :: m2) -> text E c = Ok (atom_text E c))
        by (apply atoms_app; [exact A1|]; apply atoms_cons; [discriminate|exact A2]).
      destruct (paren_good E _ (BOr f1 f2) (ps_or _ _ _ _ (ps_one _ _ P1) P2) AA) as [P' [T' At']].
      exists (ILp :: (m1 ++ IOr :: m2) ++ [IRp]), (BOr f1 f2). unfold good_term. split; [|split; [exact At'|split]].
      * rewrite <- T', T1, T2, items_text_app. reflexivity.
      * constructor. now constructor.
      * intros v. simpl. rewrite M1, M2. reflexivity.
  - intros ps Hne HF t H. rewrite text_unfold in H. cbn [str_body] in H.
    destruct (conds_str (text E) [] ps) as [s|] eqn:Hs; [|discriminate]. cbn [bind] in H. injection H as <-.
    destruct (conds_ok E ps s Hne Hs) as [ts [Hm ->]].
    destruct (list_good E ps ts Hne HF Hm) as [l [e [T [At [P M]]]]].
    destruct (paren_good E l e (ps_one _ _ P) At) as [P' [T' At']].
    exists (INot :: ILp :: l ++ [IRp]), (BNot e). unfold good_term. split; [|split; [|split]].
    + rewrite T, T'. reflexivity.
    + apply atoms_cons; [discriminate|exact At'].
    + constructor. now constructor.
    + intros v. cbn [bval]. rewrite M. reflexivity.
Qed.

Lemma boolean_structure : forall E x t, cond_tree x -> text E x = Ok t ->
  exists (l : list (item val)) (w : val -> str),
    t = items_text w l /\ (forall a, In (IAtom a) l -> text E a = Ok (w a)) /\
    (exists e, p_search l e) /\
    (forall e v, p_search l e -> bval v e = meaning v x).
Proof.
  intros E x t Hx Ht. destruct (tree_good E x Hx t Ht) as [l [e [T [At [P M]]]]].
  exists l, (atom_text E). split; [exact T|]. split; [exact At|]. split.
  - exists e. now constructor.
  - intros e' v H. rewrite <- M. eapply parse_unique; [exact H|]. now constructor.
Qed.
