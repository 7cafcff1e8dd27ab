(** Lemmas: what printing queries does to everything a program has. *)
From Coq Require Import Lia.
From Verif Require Import Base NumFmt Value Backend Eq Render ParseArgs Build Queries Heap SpecHeap PfHeap PfHeapView HeapBuild HeapShow SpecEffects SpecShare PfEffects PfRerender PfShare PfNewItems.
Open Scope string_scope.
Open Scope list_scope.
Open Scope nat_scope.

(** ** Values *)
Section Up.
  Context (E : env).
  Definition moved_to (v w : val) : Prop := plainly_joined v -> touch E v w.
  Notation T := moved_to.
  Definition okl (l : list val) : Prop := forall x, In x l -> plainly_joined x.
  Lemma okl_app : forall l m, okl (l ++ m) -> okl l /\ okl m.
  Proof. intros l m H. split; intros x I; apply H; apply in_or_app; auto. Qed.
  Lemma okl_flat : forall A (f : A -> list val) l x, okl (flat_map f l) -> In x l -> okl (f x).
  Proof. intros A f l x H I y J. apply H. apply in_flat_map. eauto. Qed.
  Lemma up_list : forall l m, okl l -> Forall2 T l m -> Forall2 (touch E) l m.
  Proof. intros l m H. apply Forall2_mono. intros x y I X. exact (X (H _ I)). Qed.
  Lemma up_pairs : forall l m, okl (flat_map pair_vals l) -> Forall2 (pair2 T) l m -> Forall2 (pair2 (touch E)) l m.
  Proof. intros l m H. apply Forall2_mono. intros x y I [X Y]. pose proof (okl_flat _ _ _ _ H I) as K. split; [apply X|apply Y]; apply K; cbn; auto. Qed.
  Lemma up_fst : forall B (l m : list (val * B)), okl (map fst l) -> Forall2 (fst2 T) l m -> Forall2 (fst2 (touch E)) l m.
  Proof. intros B l m H. apply Forall2_mono. intros x y I [X Y]. split; [|exact Y]. apply X, H. apply in_map. exact I. Qed.
  Lemma up_opt : forall a b, okl (opt_vals a) -> opt2 T a b -> opt2 (touch E) a b.
  Proof. intros a b H X. destruct X as [|x y X]; constructor. apply X, H. left. reflexivity. Qed.
  Lemma up_out : forall a b, okl (out_vals a) -> out2 T a b -> out2 (touch E) a b.
  Proof. intros a b H (X1 & X2 & X3 & X4). unfold out_vals in H. do 3 (apply okl_app in H; let K := fresh in destruct H as [K H]). split; [|split; [|split]]; apply up_opt; assumption. Qed.
  Lemma up_rows : forall l m, okl (List.concat l) -> Forall2 (Forall2 T) l m -> Forall2 (Forall2 (touch E)) l m.
  Proof. intros l m H. apply Forall2_mono. intros x y I. apply up_list. intros z J. apply H. apply in_concat. eauto. Qed.
  Definition table_moved (t u : table val) : Prop := T (tb_name t) (tb_name u) /\ T (tb_alias t) (tb_alias u) /\ Forall2 (join2 T) (tb_joins t) (tb_joins u).
  Lemma simple_T : forall x y, simple x -> T x y -> y = x.
  Proof. intros x y S X. apply (simple_same E); [exact S|]. apply X. apply simple_pj. exact S. Qed.
  Lemma join2_refl : forall l, Forall2 (join2 (touch E)) l l.
  Proof.
    intros l. induction l as [|j l IH]; constructor; [|exact IH]. repeat split; try apply t_same. generalize (j_ons j). intros o. induction o; constructor; [apply t_same|assumption].
  Qed.
  Lemma up_tables : forall l m, okl (flat_map table_vals l) -> (forall t x, In t l -> In x (flat_map join_vals (tb_joins t)) -> simple x) ->
    Forall2 table_moved l m -> Forall2 (table2 E (touch E)) l m.
  Proof.
    intros l m H S. apply Forall2_mono. intros t u I (X & Y & Z). pose proof (okl_flat _ _ _ _ H I) as K. split; [apply X, K; left; reflexivity|]. split; [apply Y, K; right; left; reflexivity|].
    assert (EQ : tb_joins u = tb_joins t).
    { eapply Forall2_same; [|exact Z]. intros [ty n a o] [ty' n' a' o'] IJ (A0 & A1 & A2 & A3). cbn [j_type j_name j_alias j_ons] in *. subst ty'.
      assert (SS : forall x, In x (join_vals (MkJoin ty n a o)) -> simple x) by (intros x IX; apply (S t x I); apply in_flat_map; eauto). unfold join_vals in SS. cbn [j_name j_alias j_ons] in SS.
      rewrite (simple_T _ _ (SS _ (or_introl eq_refl)) A1), (simple_T _ _ (SS _ (or_intror (or_introl eq_refl))) A2). f_equal.
      eapply Forall2_same; [|exact A3]. intros x y IX. apply simple_T. apply SS. right. right. exact IX. }
    rewrite EQ. exists (tb_joins t), (tb_joins t). split; [left; reflexivity|]. split; [apply join2_refl|left; reflexivity].
  Qed.
  Definition sel_moved (p q : selq val) : Prop :=
    s_opts p = s_opts q /\ Forall2 (pair2 T) (s_cols p) (s_cols q) /\ Forall2 table_moved (s_tabs p) (s_tabs q) /\
    Forall2 T (s_where p) (s_where q) /\ Forall2 (fst2 T) (s_group p) (s_group q) /\ Forall2 T (s_having p) (s_having q) /\
    Forall2 (fst2 T) (s_order p) (s_order q) /\ s_limit p = s_limit q /\ out2 T (s_out p) (s_out q) /\ s_forupd p = s_forupd q.
  Definition ins_moved (p q : insq val) : Prop :=
    i_replace p = i_replace q /\ i_ignore p = i_ignore q /\ Forall2 table_moved (i_tabs p) (i_tabs q) /\
    Forall2 (Forall2 T) (i_rows p) (i_rows q) /\ Forall2 T (i_dup p) (i_dup q) /\ i_conflict p = i_conflict q /\ Forall2 T (i_upd p) (i_upd q).
  Definition upd_moved (p q : updq val) : Prop :=
    u_ignore p = u_ignore q /\ Forall2 table_moved (u_tabs p) (u_tabs q) /\ Forall2 T (u_vals p) (u_vals q) /\ Forall2 T (u_where p) (u_where q) /\ u_allow p = u_allow q.
  Definition del_moved (p q : delq val) : Prop :=
    d_ignore p = d_ignore q /\ Forall2 table_moved (d_tabs p) (d_tabs q) /\ Forall2 table_moved (d_refs p) (d_refs q) /\ Forall2 T (d_where p) (d_where q) /\ d_allow p = d_allow q.
  Lemma pj_okl : forall v, plainly_joined v -> okl (children v).
  Proof. intros v P x I. exact (pj_kids _ _ P I). Qed.
  Lemma pj_joins : forall v t x, plainly_joined v -> In t (tables_of v) -> In x (flat_map join_vals (tb_joins t)) -> simple x.
  Proof. intros v t x [_ P _]. apply P. Qed.
  Lemma up_select : forall p q, sel_moved p q -> T (VSelect p) (VSelect q).
  Proof.
    intros p q (X0 & X1 & X2 & X3 & X4 & X5 & X6 & X7 & X8 & X9) P. pose proof (pj_okl _ P) as H. cbn [children] in H. unfold sel_vals in H.
    do 6 (apply okl_app in H; let K := fresh "K" in destruct H as [K H]). apply t_select.
    split; [exact X0|]. split; [apply up_pairs; assumption|]. split; [apply up_tables; [assumption|intros t x I; apply (pj_joins _ _ _ P); exact I|assumption]|].
    split; [apply up_list; assumption|]. split; [apply up_fst; assumption|]. split; [apply up_list; assumption|]. split; [apply up_fst; assumption|]. split; [exact X7|]. split; [apply up_out; assumption|exact X9].
  Qed.
  Lemma up_insert : forall p q, ins_moved p q -> T (VInsert p) (VInsert q).
  Proof.
    intros p q (X0 & X1 & X2 & X3 & X4 & X5 & X6) P. pose proof (pj_okl _ P) as H. cbn [children] in H. unfold ins_vals in H.
    do 3 (apply okl_app in H; let K := fresh "K" in destruct H as [K H]). apply t_insert.
    split; [exact X0|]. split; [exact X1|]. split; [apply up_tables; [assumption|intros t x I; apply (pj_joins _ _ _ P); exact I|assumption]|].
    split; [apply up_rows; assumption|]. split; [apply up_list; assumption|]. split; [exact X5|]. apply up_list; assumption.
  Qed.
  Lemma up_update : forall p q, upd_moved p q -> T (VUpdate p) (VUpdate q).
  Proof.
    intros p q (X0 & X1 & X2 & X3 & X4) P. pose proof (pj_okl _ P) as H. cbn [children] in H. unfold upd_vals in H.
    do 2 (apply okl_app in H; let K := fresh "K" in destruct H as [K H]). apply t_update.
    split; [exact X0|]. split; [apply up_tables; [assumption|intros t x I; apply (pj_joins _ _ _ P); exact I|assumption]|].
    split; [apply up_list; assumption|]. split; [apply up_list; assumption|exact X4].
  Qed.
  Lemma up_delete : forall p q, del_moved p q -> T (VDelete p) (VDelete q).
  Proof.
    intros p q (X0 & X1 & X2 & X3 & X4) P. pose proof (pj_okl _ P) as H. cbn [children] in H. unfold del_vals in H.
    do 2 (apply okl_app in H; let K := fresh "K" in destruct H as [K H]). apply t_delete.
    split; [exact X0|]. split; [apply up_tables; [assumption|intros t x I; apply (pj_joins _ _ _ P); apply in_or_app; left; exact I|assumption]|].
    split; [apply up_tables; [assumption|intros t x I; apply (pj_joins _ _ _ P); apply in_or_app; right; exact I|assumption]|].
    split; [apply up_list; assumption|exact X4].
  Qed.
  Lemma up_seq : forall k l m, Forall2 T l m -> T (VSeq k l) (VSeq k m).
  Proof.
    intros k l m F P. assert (S : simple (VSeq k l)) by (destruct P as [P _ _]; apply P; exact Logic.I).
    rewrite (Forall2_same _ _ _ _ (fun x y I => simple_T x y (simple_kids _ _ S I)) F). apply t_same.
  Qed.
  Lemma up_dict : forall l m, Forall2 (pair2 T) l m -> T (VDict l) (VDict m).
  Proof.
    intros l m F P. assert (S : simple (VDict l)) by (destruct P as [P _ _]; apply P; exact Logic.I).
    rewrite (Forall2_same _ (pair2 T) l m); [apply t_same| |exact F]. intros [a b] [c d] I [X Y]. cbn [fst snd] in *.
    assert (K : forall x, In x (pair_vals (a, b)) -> simple x) by (intros x IX; apply (simple_kids _ _ S); cbn [children]; apply in_flat_map; eauto).
    rewrite (simple_T _ _ (K _ (or_introl eq_refl)) X), (simple_T _ _ (K _ (or_intror (or_introl eq_refl))) Y). reflexivity.
  Qed.
  Ltac kid P := apply (pj_kids _ _ P); cbn; auto.
  Lemma up_one : forall (f : val -> val), (forall x y, touch E x y -> touch E (f x) (f y)) -> (forall x, children (f x) = [x]) -> forall x y, T x y -> T (f x) (f y).
  Proof. intros f F K x y X P. apply F, X, (pj_kids _ _ P). rewrite K. left. reflexivity. Qed.
  Lemma up_two : forall (f : val -> val -> val), (forall x y x' y', touch E x x' -> touch E y y' -> touch E (f x y) (f x' y')) -> (forall x y, children (f x y) = [x; y]) ->
    forall x y x' y', T x x' -> T y y' -> T (f x y) (f x' y').
  Proof. intros f F K x y x' y' X Y P. apply F; [apply X|apply Y]; apply (pj_kids _ _ P); rewrite K; cbn; auto. Qed.
  Lemma up_conds : forall l m, Forall2 T l m -> T (VConds l) (VConds m).
  Proof. intros l m F P. apply t_conds. apply up_list; [exact (pj_okl _ P)|exact F]. Qed.
  Lemma up_not : forall l m, Forall2 T l m -> T (VNot l) (VNot m).
  Proof. intros l m F P. apply t_not. apply up_list; [exact (pj_okl _ P)|exact F]. Qed.
  Lemma up_concat : forall l m, Forall2 (pair2 T) l m -> T (VConcat l) (VConcat m).
  Proof. intros l m F P. apply t_concat. apply up_pairs; [exact (pj_okl _ P)|exact F]. Qed.
  Lemma up_gc : forall l m o o' s s', Forall2 (pair2 T) l m -> Forall2 (fst2 T) o o' -> T s s' -> T (VGroupConcat l o s) (VGroupConcat m o' s').
  Proof.
    intros l m o o' s s' F G X P. pose proof (pj_okl _ P) as H. cbn [children] in H. apply okl_app in H. destruct H as [K H]. apply okl_app in H. destruct H as [K1 H].
    apply t_gc; [apply up_pairs; assumption|apply up_fst; assumption|]. apply X, H. left. reflexivity.
  Qed.
End Up.

(** ** Reading *)
Definition okrel {A B} (R : A -> B -> Prop) (m : res A) (m' : res B) : Prop := forall x, m = Ok x -> exists y, m' = Ok y /\ R x y.
Lemma ok_bind : forall A B C D (R : A -> B -> Prop) (S : C -> D -> Prop) m m' f f', okrel R m m' -> (forall x y, m = Ok x -> R x y -> okrel S (f x) (f' y)) -> okrel S (bind m f) (bind m' f').
Proof. intros A B C D R S m m' f f' H K z E. destruct m as [x|e]; [|discriminate]. destruct (H x eq_refl) as (y & -> & X). exact (K x y eq_refl X z E). Qed.
Lemma ok_ret : forall A B (R : A -> B -> Prop) x y, R x y -> okrel R (Ok x) (Ok y).
Proof. intros A B R x y X z E. injection E as <-. exists y. auto. Qed.
Lemma ok_bad : forall A B (R : A -> B -> Prop) e m, okrel R (Err e) m.
Proof. intros A B R e m z E. discriminate. Qed.
Lemma ok_rmap : forall A B C D (R : A -> B -> Prop) (S : C -> D -> Prop) m m' f f', okrel R m m' -> (forall x y, R x y -> S (f x) (f' y)) -> okrel S (rmap f m) (rmap f' m').
Proof. intros A B C D R S m m' f f' H K z E. destruct m as [x|e]; [|discriminate]. destruct (H x eq_refl) as (y & -> & X). injection E as <-. exists (f' y). split; [reflexivity|auto]. Qed.
Lemma ok_mapM : forall A B C (P : A -> Prop) (R : B -> C -> Prop) f g l, Forall P l -> (forall x, P x -> okrel R (f x) (g x)) -> okrel (Forall2 R) (mapM f l) (mapM g l).
Proof.
  intros A B C P R f g l F H. induction F as [|x l HX F IH]; intros z E.
  - injection E as <-. exists []. split; [reflexivity|constructor].
  - cbn [mapM] in *. destruct (f x) as [a|] eqn:FX; [|discriminate]. cbn [bind] in E. destruct (mapM f l) as [b|] eqn:FL; [|discriminate]. injection E as <-.
    destruct (H x HX a FX) as (y & -> & X). destruct (IH _ eq_refl) as (ys & -> & Y). exists (y :: ys). split; [reflexivity|]. constructor; assumption.
Qed.
Lemma ok_eq : forall A (m : res A), okrel eq m m.
Proof. intros A m x ->. exists x. auto. Qed.
Lemma ok_and : forall A B (R : A -> B -> Prop) (P : Prop) m m', okrel R m m' -> (forall x, m = Ok x -> P) -> okrel (fun x y => R x y /\ P) m m'.
Proof. intros A B R P m m' H K x E. destruct (H x E) as (y & Y & X). exists y. split; [exact Y|]. split; [exact X|exact (K x E)]. Qed.

Definition query_kind (k : kind) : bool := match k with OInst (CSelect | CInsert | CUpdate | CDelete) => true | _ => false end.
Section Read.
  Variables (h h' : heap) (N : addr -> Prop) (q : addr).
  Definition nr (r : ref) : Prop := match r with RAtom _ => True | RPtr p => N p end.
  Definition ex (r : ref) : Prop := match r with RAtom _ => True | RPtr p => N p /\ p <> q end.
  Hypothesis SAME : forall p, N p -> p <> q -> get h' p = get h p.
  Hypothesis KIND : kind_of h' q = kind_of h q.
  Hypothesis QK : forall k, kind_of h q = Some k -> query_kind k = true.
  Hypothesis NEXT : forall p k l a r, N p -> p <> q -> get h p = Some (MkObj k l) -> In (a, r) l -> nr r.

  Definition nl (l : list (label * ref)) : Prop := forall a r, In (a, r) l -> nr r.
  Lemma rd_obj : forall r, ex r -> obj_at h' r = obj_at h r.
  Proof. intros [a|p] X; [reflexivity|]. destruct X as [X Y]. cbn. rewrite (SAME _ X Y). reflexivity. Qed.
  Lemma rd_obj_nl : forall r o, ex r -> obj_at h r = Ok o -> nl (o_refs o).
  Proof. intros [a|p] [k l] X E; [discriminate|]. destruct X as [X Y]. cbn in E. destruct (get h p) as [[k0 l0]|] eqn:G; [|discriminate]. injection E as <- <-. intros b r I. exact (NEXT _ _ _ _ _ X Y G I). Qed.
  Lemma refs_ex : forall k r l, nr r -> query_kind k = false -> refs_at h k r = Ok l -> ex r.
  Proof.
    intros k [a|p] l X K E; [exact Logic.I|]. split; [exact X|]. intros ->. unfold refs_at, obj_at in E. pose proof (QK (o_kind (match get h q with Some o => o | None => MkObj k [] end))) as Q.
    unfold kind_of in Q. destruct (get h q) as [o|]; [|discriminate]. cbn in E, Q. destruct (kind_eqb k (o_kind o)) as [->|]; [|discriminate]. rewrite (Q eq_refl) in K. discriminate.
  Qed.
  Lemma rd_refs : forall k r, nr r -> query_kind k = false -> okrel (fun l l' => l' = l /\ nl l /\ ex r) (refs_at h k r) (refs_at h' k r).
  Proof.
    intros k r X K l E. pose proof (refs_ex _ _ _ X K E) as Y. exists l. split; [|split; [reflexivity|split; [|exact Y]]].
    - unfold refs_at in *. rewrite (rd_obj _ Y). exact E.
    - unfold refs_at in E. destruct (obj_at h r) as [o|] eqn:O; [|discriminate]. cbn [bind] in E. destruct (kind_eqb k (o_kind o)); [|discriminate]. injection E as <-. exact (rd_obj_nl _ _ Y O).
  Qed.
  Lemma find_attr_in : forall k l r, find_attr k l = Ok r -> exists a, In (a, r) l.
  Proof.
    intros k l r. induction l as [|[a x] l IH]; cbn; [discriminate|]. intros E.
    destruct a; try (destruct (IH E) as [b B]; exists b; right; exact B). destruct (String.eqb k name); [injection E as <-; eexists; left; reflexivity|destruct (IH E) as [b B]; exists b; right; exact B].
  Qed.
  Lemma rd_attr : forall k r, ex r -> okrel (fun x x' => x' = x /\ nr x) (attr h k r) (attr h' k r).
  Proof.
    intros k r X x E. exists x. unfold attr in *. rewrite (rd_obj _ X). split; [exact E|]. split; [reflexivity|].
    destruct (obj_at h r) as [o|] eqn:O; [|discriminate]. cbn [bind] in E. destruct (find_attr_in _ _ _ E) as [a A]. exact (rd_obj_nl _ _ X O _ _ A).
  Qed.
  Lemma find_key_in : forall k l r, find_key k l = Ok r -> exists a, In (a, r) l.
  Proof.
    intros k l r. induction l as [|[a x] l IH]; cbn; [discriminate|]. intros E. destruct (d_str a) as [s|].
    - destruct (seqb s (lit k)); [injection E as <-; exists a; left; reflexivity|]. destruct (IH E) as [b B]. exists b. right. exact B.
    - destruct (IH E) as [b B]. exists b. right. exact B.
  Qed.
  Lemma rd_lookup : forall k r, nr r -> okrel (fun x x' => x' = x /\ nr x) (lookup h k r) (lookup h' k r).
  Proof.
    intros k r X. unfold lookup. eapply ok_bind; [apply rd_refs; [exact X|reflexivity]|]. intros l l' _ (-> & L & _) x E. exists x. split; [exact E|]. split; [reflexivity|].
    destruct (find_key_in _ _ _ E) as [a A]. apply pairs_in in A. destruct A as [_ [b A]]. exact (L _ _ A).
  Qed.
  Lemma nl_items : forall l, nl l -> Forall nr (items_of l).
  Proof. intros l L. apply Forall_forall. intros r I. apply items_in in I. destruct I as [a I]. exact (L _ _ I). Qed.
  Lemma nl_pairs : forall l, nl l -> Forall (fun x => nr (fst x) /\ nr (snd x)) (pairs_of l).
  Proof. intros l L. apply Forall_forall. intros [a b] I. apply pairs_in in I. destruct I as [[x I] [y J]]. split; [exact (L _ _ I)|exact (L _ _ J)]. Qed.
  Lemma rd_parts : forall c r, nr r -> query_kind (OInst c) = false -> okrel (fun l l' => (l' = l /\ Forall nr l) /\ ex r) (parts h c r) (parts h' c r).
  Proof.
    intros c r X K. unfold parts. eapply ok_bind; [apply rd_refs; assumption|]. intros _ _ _ (_ & _ & Y). eapply ok_bind; [apply rd_attr; exact Y|]. intros p p' _ (-> & P).
    eapply ok_bind; [apply rd_refs; [exact P|reflexivity]|]. intros l l' _ (-> & L & _). apply ok_ret. split; [|exact Y]. split; [reflexivity|apply nl_items; exact L].
  Qed.
  Lemma rd_inst : forall r, nr r -> is_inst (match r with RPtr p => get h' p | _ => None end) = is_inst (match r with RPtr p => get h p | _ => None end).
  Proof.
    intros [a|p] X; [reflexivity|]. destruct (Nat.eq_dec p q) as [->|NE]; [|rewrite (SAME _ X NE); reflexivity].
    unfold kind_of in KIND. destruct (get h q) as [[k l]|], (get h' q) as [[k' l']|]; cbn in KIND; try discriminate; [|reflexivity]. injection KIND as ->. reflexivity.
  Qed.
  Lemma rd_same_inst : forall a b, nr a -> same_inst h' a b = same_inst h a b.
  Proof. intros [a|p] [b|p'] X; try reflexivity. cbn. rewrite (rd_inst (RPtr p) X). reflexivity. Qed.
  Lemma rd_qpart : forall k r, ex r -> okrel (fun x x' => x' = x /\ nr x) (qpart h k r) (qpart h' k r).
  Proof.
    intros k r X. unfold qpart. eapply ok_bind; [apply rd_attr; exact X|]. intros d d' _ (-> & D). eapply ok_bind; [apply rd_lookup; exact D|]. intros a a' _ (-> & A).
    eapply ok_bind; [apply rd_attr; exact X|]. intros b b' _ (-> & B). rewrite (rd_same_inst _ _ A). destruct (same_inst h a b); [apply ok_ret; auto|apply ok_bad].
  Qed.
  Lemma rd_bound : forall r x, nr (snd x) -> bound_to h r x = true -> bound_to h' r x = true.
  Proof.
    intros r [k v] X B. unfold bound_to in *. cbn [snd] in *. destruct (refs_at h OMethod v) as [l|] eqn:R; [|discriminate].
    destruct (rd_refs OMethod v X eq_refl l R) as (l' & -> & -> & L & _).
    destruct l as [|[[] [[]|]] [|[[] s] []]]; try discriminate. rewrite (rd_same_inst s r); [exact B|]. eapply L. right. left. reflexivity.
  Qed.
  Lemma rd_self : forall r, ex r -> okrel eq (self_bound h r) (self_bound h' r).
  Proof.
    intros r X. unfold self_bound. eapply ok_bind; [apply rd_attr; exact X|]. intros d d' _ (-> & D). eapply ok_bind; [apply rd_refs; [exact D|reflexivity]|]. intros l l' _ (-> & L & _).
    destruct (forallb (bound_to h r) (pairs_of l)) eqn:F; [|apply ok_bad]. assert (F' : forallb (bound_to h' r) (pairs_of l) = true).
    { apply forallb_forall. intros x I. rewrite forallb_forall in F. pose proof (nl_pairs _ L) as P. rewrite Forall_forall in P. apply rd_bound; [apply P; exact I|apply F; exact I]. }
    rewrite F'. apply ok_eq.
  Qed.
  Ltac step t := eapply ok_bind; [t|].
  Lemma rd_option : forall k r, ex r -> okrel eq (option_at h k r) (option_at h' k r).
  Proof. intros k r X. unfold option_at. step ltac:(apply rd_attr; exact X). intros d d' _ (-> & D). step ltac:(apply rd_lookup; exact D). intros x x' _ (-> & _). apply ok_eq. Qed.
  Lemma rd_flag : forall k r, ex r -> okrel eq (flag h k r) (flag h' k r).
  Proof. intros k r X. unfold flag. step ltac:(apply rd_option; exact X). intros s s' _ <-. apply ok_eq. Qed.
  Ltac flags := repeat (eapply ok_bind; [first [apply rd_flag; assumption|apply rd_option; assumption|apply ok_eq]|intros ? ? _ <-]).
  Lemma rd_selopts : forall r, nr r -> okrel eq (d_selopts h r) (d_selopts h' r).
  Proof. intros r X. unfold d_selopts. step ltac:(apply rd_refs; [exact X|reflexivity]). intros _ _ _ (_ & _ & Y). flags. apply ok_eq. Qed.
  Lemma rd_limits : forall r, nr r -> okrel eq (d_limits h r) (d_limits h' r).
  Proof.
    intros r X. unfold d_limits. step ltac:(apply rd_refs; [exact X|reflexivity]). intros _ _ _ (_ & _ & Y). step ltac:(apply rd_attr; exact Y). intros a a' _ (-> & _). step ltac:(apply ok_eq). intros z z' _ <-.
    step ltac:(apply rd_attr; exact Y). intros b b' _ (-> & _). apply ok_eq.
  Qed.
  Lemma rd_forupd : forall r, nr r -> okrel eq (d_forupd h r) (d_forupd h' r).
  Proof. intros r X. unfold d_forupd. step ltac:(apply rd_refs; [exact X|reflexivity]). intros _ _ _ (_ & _ & Y). step ltac:(apply rd_attr; exact Y). intros a a' _ (-> & _). apply ok_eq. Qed.
  Lemma rd_keyword : forall r, nr r -> okrel eq (d_keyword h r) (d_keyword h' r).
  Proof. intros r X. unfold d_keyword. step ltac:(apply rd_refs; [exact X|reflexivity]). intros _ _ _ (_ & _ & Y). step ltac:(apply rd_attr; exact Y). intros a a' _ (-> & _). apply ok_eq. Qed.
  Lemma rd_conflict : forall r, nr r -> okrel eq (d_conflict h r) (d_conflict h' r).
  Proof.
    intros [a|p] X; [apply ok_eq|]. unfold d_conflict. step ltac:(apply rd_refs; [exact X|reflexivity]). intros _ _ _ (_ & _ & Y). step ltac:(apply rd_self; exact Y). intros _ _ _ _.
    step ltac:(apply rd_attr; exact Y). intros b b' _ (-> & _). apply ok_eq.
  Qed.

  Variable E : env.
  Notation T := (moved_to E).
  Variables D D' : ref -> res val.
  (** A value keeps its kind as far as reading depends on it. *)
  Definition goes_to (v w : val) : Prop := T v w /\ is_none w = is_none v /\ forall t x, v = VRel t x -> exists y, w = VRel t y /\ T x y.
  Hypothesis DS : forall r, nr r -> okrel goes_to (D r) (D' r).
  Lemma DD : forall r, nr r -> okrel T (D r) (D' r).
  Proof. intros r X v V. destruct (DS r X v V) as (w & W & G & _). exists w. auto. Qed.
  Ltac val_at Y := eapply ok_bind; [apply rd_attr; exact Y|]; intros ? ? _ (-> & ?); eapply ok_bind; [apply DD; assumption|]; intros ? ? ? ?.
  Lemma rd_column : forall r, nr r -> okrel (pair2 T) (d_column h D r) (d_column h' D' r).
  Proof. intros r X. unfold d_column. step ltac:(apply rd_refs; [exact X|reflexivity]). intros _ _ _ (_ & _ & Y). val_at Y. val_at Y. apply ok_ret. split; assumption. Qed.
  Lemma rd_columns : forall r, nr r -> okrel (Forall2 (pair2 T)) (d_columns h D r) (d_columns h' D' r).
  Proof. intros r X. unfold d_columns. step ltac:(apply rd_parts; [exact X|reflexivity]). intros l l' _ ((-> & L) & _). eapply ok_mapM; [exact L|exact rd_column]. Qed.
  Lemma rd_order : forall r, nr r -> okrel (fst2 T) (d_order h D r) (d_order h' D' r).
  Proof.
    intros r X. unfold d_order. step ltac:(apply rd_refs; [exact X|reflexivity]). intros _ _ _ (_ & _ & Y). val_at Y. step ltac:(apply rd_attr; exact Y). intros b b' _ (-> & _).
    step ltac:(apply ok_eq). intros z z' _ <-. apply ok_ret. split; [assumption|reflexivity].
  Qed.
  Lemma rd_orders : forall c r, nr r -> query_kind (OInst c) = false -> okrel (Forall2 (fst2 T)) (d_orders h D c r) (d_orders h' D' c r).
  Proof. intros c r X K. unfold d_orders. step ltac:(apply rd_parts; [exact X|exact K]). intros l l' _ ((-> & L) & _). eapply ok_mapM; [exact L|exact rd_order]. Qed.
  Lemma rd_named : forall r, nr r -> okrel (fun x y => pair2 T x y /\ ex r) (d_named h D r) (d_named h' D' r).
  Proof. intros r X. unfold d_named. step ltac:(apply rd_refs; [exact X|reflexivity]). intros _ _ _ (_ & _ & Y). val_at Y. val_at Y. apply ok_ret. split; [split; assumption|exact Y]. Qed.
  Lemma rd_conds : forall c r, nr r -> query_kind (OInst c) = false -> okrel (fun x y => Forall2 T x y /\ ex r) (d_conds h D c r) (d_conds h' D' c r).
  Proof.
    intros c r X K. unfold d_conds. step ltac:(apply rd_parts; [exact X|exact K]). intros l l' _ ((-> & L) & Y). apply ok_and; [|intros _ _; exact Y]. eapply ok_mapM; [exact L|exact DD].
  Qed.
  Lemma rd_join : forall r, nr r -> okrel (join2 T) (d_join h D r) (d_join h' D' r).
  Proof.
    intros r X. unfold d_join. step ltac:(apply rd_lookup; exact X). intros t t' _ (-> & _). step ltac:(apply ok_eq). intros ty ty' _ <-. step ltac:(apply rd_lookup; exact X). intros b b' _ (-> & B).
    step ltac:(apply rd_named; exact B). intros n n' _ ([N1 N2] & Y). step ltac:(apply rd_attr; exact Y). intros j j' _ (-> & J). step ltac:(apply rd_refs; [exact J|reflexivity]). intros l l' _ (-> & _).
    step ltac:(apply rd_lookup; exact X). intros o o' _ (-> & O). step ltac:(apply rd_conds; [exact O|reflexivity]). intros c c' _ (C & _). destruct l; [|apply ok_bad]. apply ok_ret. repeat split; assumption.
  Qed.
  Lemma rd_table : forall r, nr r -> okrel (table_moved E) (d_table h D r) (d_table h' D' r).
  Proof.
    intros r X. unfold d_table. step ltac:(apply rd_named; exact X). intros n n' _ ([N1 N2] & Y). step ltac:(apply rd_attr; exact Y). intros j j' _ (-> & J). step ltac:(apply rd_refs; [exact J|reflexivity]). intros l l' _ (-> & L & _).
    step ltac:(eapply ok_mapM; [apply nl_items; exact L|exact rd_join]). intros js js' _ F. apply ok_ret. repeat split; assumption.
  Qed.
  Lemma rd_tables : forall c r, nr r -> query_kind (OInst c) = false -> okrel (Forall2 (table_moved E)) (d_tables h D c r) (d_tables h' D' c r).
  Proof. intros c r X K. unfold d_tables. step ltac:(apply rd_parts; [exact X|exact K]). intros l l' _ ((-> & L) & _). eapply ok_mapM; [exact L|exact rd_table]. Qed.
  Lemma rd_opt : forall r, nr r -> okrel (opt2 T) (d_opt D r) (d_opt D' r).
  Proof.
    intros r X. unfold d_opt. step ltac:(apply DS; exact X). intros v w _ (G & IN & _). destruct (is_none v) eqn:V.
    - destruct v; try discriminate. destruct w; try discriminate. apply ok_ret. constructor.
    - assert (EV : (match v with VNone => Ok None | _ => Ok (Some v) end : res (option val)) = Ok (Some v)) by (destruct v; try reflexivity; discriminate).
      assert (EW : (match w with VNone => Ok None | _ => Ok (Some w) end : res (option val)) = Ok (Some w)) by (destruct w; try reflexivity; discriminate).
      rewrite EV, EW. apply ok_ret. constructor. exact G.
  Qed.
  Ltac opt_at Y := eapply ok_bind; [apply rd_attr; exact Y|]; intros ? ? _ (-> & ?); eapply ok_bind; [apply rd_opt; assumption|]; intros ? ? ? ?.
  Lemma rd_outfile : forall r, nr r -> okrel (out2 T) (d_outfile h D r) (d_outfile h' D' r).
  Proof.
    intros r X. unfold d_outfile. step ltac:(apply rd_refs; [exact X|reflexivity]). intros _ _ _ (_ & _ & Y). opt_at Y. opt_at Y. opt_at Y. opt_at Y. apply ok_ret. repeat split; assumption.
  Qed.
  Ltac part Y := eapply ok_bind; [apply rd_qpart; exact Y|]; intros ? ? _ (-> & ?).
  Ltac says t := eapply ok_bind; [t; first [assumption|reflexivity]|].
  Lemma rd_select : forall r, ex r -> okrel (sel_moved E) (d_select h D r) (d_select h' D' r).
  Proof.
    intros r Y. unfold d_select. part Y. says ltac:(apply rd_selopts). intros ? ? _ <-. part Y. says ltac:(apply rd_columns). intros ? ? _ ?. part Y. says ltac:(apply rd_tables). intros ? ? _ ?.
    part Y. says ltac:(apply rd_conds). intros ? ? _ [? _]. part Y. says ltac:(apply rd_orders). intros ? ? _ ?. part Y. says ltac:(apply rd_conds). intros ? ? _ [? _]. part Y. says ltac:(apply rd_orders). intros ? ? _ ?.
    part Y. says ltac:(apply rd_limits). intros ? ? _ <-. part Y. says ltac:(apply rd_outfile). intros ? ? _ ?. part Y. says ltac:(apply rd_forupd). intros ? ? _ <-. apply ok_ret. unfold sel_moved. cbn. auto 12.
  Qed.
  Lemma rd_insert : forall r, ex r -> okrel (ins_moved E) (d_insert h D r) (d_insert h' D' r).
  Proof.
    intros r Y. unfold d_insert. part Y. says ltac:(apply rd_keyword). intros ? ? _ <-. part Y. says ltac:(apply rd_refs). intros _ _ _ (_ & _ & Z). says ltac:(apply rd_flag). intros ? ? _ <-.
    part Y. says ltac:(apply rd_tables). intros ? ? _ ?. part Y. says ltac:(apply rd_parts). intros ? ? _ ((-> & L) & _).
    step ltac:(eapply (ok_mapM _ _ _ nr (Forall2 T)); [exact L|]; intros z Z1 v V; destruct (rd_conds CValues z Z1 eq_refl v V) as (w & W & F & _); exists w; auto). intros rows rows' _ F.
    part Y. says ltac:(apply rd_conds). intros ? ? _ [? _]. part Y. says ltac:(apply rd_conds). intros ? ? _ [? Z2]. step ltac:(apply rd_attr; exact Z2). intros ? ? _ (-> & ?). says ltac:(apply rd_conflict). intros ? ? _ <-.
    apply ok_ret. unfold ins_moved. cbn. auto 12.
  Qed.
  Lemma rd_update : forall r, ex r -> okrel (upd_moved E) (d_update h D r) (d_update h' D' r).
  Proof.
    intros r Y. unfold d_update. part Y. says ltac:(apply rd_refs). intros _ _ _ (_ & _ & Z). says ltac:(apply rd_flag). intros ? ? _ <-. part Y. says ltac:(apply rd_tables). intros ? ? _ ?.
    part Y. says ltac:(apply rd_conds). intros ? ? _ [? _]. part Y. says ltac:(apply rd_conds). intros ? ? _ [? _]. step ltac:(apply rd_attr; exact Y). intros ? ? _ (-> & _). step ltac:(apply ok_eq). intros ? ? _ <-.
    apply ok_ret. unfold upd_moved. cbn. auto 12.
  Qed.
  Lemma rd_delete : forall r, ex r -> okrel (del_moved E) (d_delete h D r) (d_delete h' D' r).
  Proof.
    intros r Y. unfold d_delete. part Y. says ltac:(apply rd_refs). intros _ _ _ (_ & _ & Z). says ltac:(apply rd_flag). intros ? ? _ <-. part Y. says ltac:(apply rd_tables). intros ? ? _ ?. part Y. says ltac:(apply rd_tables). intros ? ? _ ?.
    part Y. says ltac:(apply rd_conds). intros ? ? _ [? _]. step ltac:(apply rd_attr; exact Y). intros ? ? _ (-> & _). step ltac:(apply ok_eq). intros ? ? _ <-.
    apply ok_ret. unfold del_moved. cbn. auto 12.
  Qed.
  Lemma goes : forall v w, T v w -> is_none w = is_none v -> (forall t x, v <> VRel t x) -> goes_to v w.
  Proof. intros v w G I NR. split; [exact G|]. split; [exact I|]. intros t x ->. contradiction (NR t x). reflexivity. Qed.
  Ltac going := apply goes; [|reflexivity|discriminate].
  Lemma rd_inst1 : forall c r, ex r -> okrel goes_to (d_inst h D c r) (d_inst h' D' c r).
  Proof.
    intros c r Y. assert (REFL : forall v, okrel goes_to (Ok v) (Ok v)).
    { intros v. apply ok_ret. split; [intros _; apply t_same|]. split; [reflexivity|]. intros t x ->. exists x. split; [reflexivity|]. intros _. apply t_same. }
    assert (COND : forall k, okrel goes_to (d_condition h D k r) (d_condition h' D' k r)).
    { intros k. unfold d_condition. val_at Y. step ltac:(apply rd_attr; exact Y). intros u u' _ (-> & X). step ltac:(apply DS; exact X). intros v w _ (_ & _ & R). destruct v; try apply ok_bad.
      destruct (R _ _ eq_refl) as (y1 & -> & G). apply ok_ret. going. apply (up_two E (fun a b => VCond k a k0 b)); [intros; apply t_cond; assumption|reflexivity|assumption|exact G]. }
    destruct c; cbn [d_inst]; try apply ok_bad; try apply COND.
    - eapply ok_rmap; [apply rd_select; exact Y|]. intros p p' M. going. apply up_select. exact M.
    - unfold d_union. val_at Y. val_at Y. step ltac:(apply rd_attr; exact Y). intros t t' _ (-> & _). step ltac:(apply ok_eq). intros s s' _ <-.
      destruct (is_opt "UNION" s); [|destruct (is_opt "UNION ALL" s); [|apply ok_bad]]; apply ok_ret; going; apply (up_two E (VUnion _)); solve [intros; apply t_union; assumption|reflexivity|assumption].
    - eapply ok_rmap; [apply rd_insert; exact Y|]. intros p p' M. going. apply up_insert. exact M.
    - eapply ok_rmap; [apply rd_update; exact Y|]. intros p p' M. going. apply up_update. exact M.
    - eapply ok_rmap; [apply rd_delete; exact Y|]. intros p p' M. going. apply up_delete. exact M.
    - step ltac:(apply rd_conds; [|reflexivity]; destruct r; [exact Logic.I|apply Y]). intros l l' _ [F _]. apply ok_ret. going. apply up_conds. exact F.
    - unfold d_coc. val_at Y. val_at Y. step ltac:(apply rd_attr; exact Y). intros t t' _ (-> & _). step ltac:(apply ok_eq). intros s s' _ <-.
      destruct (is_opt "AND" s); [|destruct (is_opt "OR" s); [|apply ok_bad]]; apply ok_ret; going; apply (up_two E (VCoC _)); solve [intros; apply t_coc; assumption|reflexivity|assumption].
    - step ltac:(apply rd_attr; exact Y). intros u u' _ (-> & X). step ltac:(apply rd_conds; [exact X|reflexivity]). intros l l' _ [F _]. apply ok_ret. going. apply up_not. exact F.
    - val_at Y. apply ok_ret. going. apply (up_one E VExists); solve [intros; apply t_exists; assumption|reflexivity|assumption].
    - val_at Y. val_at Y. apply ok_ret. going. apply (up_two E VValue); solve [intros; apply t_value; assumption|reflexivity|assumption].
    - step ltac:(apply rd_attr; exact Y). intros t t' _ (-> & _). step ltac:(apply ok_eq). intros s s' _ <-. apply REFL.
    - step ltac:(apply rd_self; exact Y). intros _ _ _ _. val_at Y. apply ok_ret. going. apply (up_one E VSqlV); solve [intros; apply t_sqlv; assumption|reflexivity|assumption].
    - step ltac:(apply rd_self; exact Y). intros _ _ _ _. val_at Y. apply ok_ret. going. apply (up_one E VSqlR); solve [intros; apply t_sqlr; assumption|reflexivity|assumption].
    - val_at Y. apply ok_ret. split; [|split; [reflexivity|]]; [apply (up_one E (VRel _)); solve [intros; apply t_rel; assumption|reflexivity|assumption]|].
      intros t z EZ. injection EZ as <- <-. eexists. split; [reflexivity|assumption].
    - val_at Y. step ltac:(apply rd_attr; exact Y). intros t t' _ (-> & _). step ltac:(apply ok_eq). intros s s' _ <-. apply ok_ret. going. apply (up_one E (VAgg _ _)); solve [intros; apply t_agg; assumption|reflexivity|assumption].
    - step ltac:(apply rd_attr; exact Y). intros u u' _ (-> & X). step ltac:(apply rd_columns; exact X). intros l l' _ F. apply ok_ret. going. apply up_concat. exact F.
    - step ltac:(apply rd_attr; exact Y). intros u u' _ (-> & X). step ltac:(apply rd_columns; exact X). intros l l' _ F. step ltac:(apply rd_attr; exact Y). intros u1 u1' _ (-> & Y1). step ltac:(apply rd_orders; [exact Y1|reflexivity]). intros o o' _ G.
      val_at Y. apply ok_ret. going. apply up_gc; assumption.
    - unfold d_convert. val_at Y. step ltac:(apply rd_attr; exact Y). intros t t' _ (-> & _). step ltac:(apply ok_eq). intros v v' _ <-.
      destruct v; try apply ok_bad; apply ok_ret; going; apply (up_one E (fun z => VConvert z _)); solve [intros; apply t_convert; assumption|reflexivity|assumption].
  Qed.
  Lemma rd_body : forall r, ex r -> okrel goes_to (d_body h D r) (d_body h' D' r).
  Proof.
    intros [a|p] Y.
    - intros v V. exists v. split; [exact V|]. split; [intros _; apply t_same|]. split; [reflexivity|]. intros t x ->. exists x. split; [reflexivity|]. intros _. apply t_same.
    - unfold d_body. rewrite (rd_obj _ Y). destruct (obj_at h (RPtr p)) as [o|] eqn:O; [|apply ok_bad]. cbn [bind]. pose proof (rd_obj_nl _ _ Y O) as L. destruct (o_kind o).
      1,3,4,5,6: eapply ok_rmap; [eapply ok_mapM; [apply nl_items; exact L|exact DD]|]; intros l l' F; going; apply up_seq; exact F.
      + eapply ok_rmap; [eapply (ok_mapM _ _ _ _ (pair2 T)); [apply nl_pairs; exact L|]|intros l l' F; going; apply up_dict; exact F].
        intros [a b] [A B]. unfold d_pair. cbn [fst snd] in *. step ltac:(apply DD; exact A). intros ? ? _ ?. step ltac:(apply DD; exact B). intros ? ? _ ?. apply ok_ret. split; assumption.
      + apply ok_bad.
      + apply rd_inst1. exact Y.
  Qed.
End Read.
