(** Lemmas: how the objects of a query are laid out. *)
From Coq Require Import Lia.
From Verif Require Import Base NumFmt Value Backend Eq Render ParseArgs Build Heap SpecHeap PfHeap PfHeapAlike PfHeapFrame PfHeapView HeapBuild SpecShare PfShare PfOwn PfParts PfNewItems PfMethods.
Open Scope nat_scope.
Local Arguments view : simpl never.

(** The objects of part [k] of query [q]. *)
Definition cell (own : owner) (q : addr) (k : string) : addr -> Prop := fun p => exists s, own p = Some (q, (k, s)).
Lemma after_cells : forall G own q k h own1 h1 own2 h2, after G (cell own q k) own h own1 h1 -> after G (cell own1 q k) own1 h1 own2 h2 ->
  after G (cell own q k) own h own2 h2.
Proof.
  intros G own q k h own1 h1 own2 h2 (K & I & F) (K' & I' & F'). split; [eapply keeps_trans; eauto|]. split; [exact I'|].
  intros p L. destruct (F p L) as [E|X]; [|right; exact X]. destruct K as (LL & OO & _). destruct (F' p ltac:(lia)) as [E'|[X|[s X]]]; auto.
  - left. congruence.
  - right. right. exists s. rewrite <- OO by exact L. exact X.
Qed.
(** References that do not lead to the query do not lead to its objects. *)
Definition whole (own : owner) (q : addr) : addr -> Prop := fun p => p = q \/ exists s, own p = Some (q, s).
Lemma avoids_calm : forall own h q r, inv own h -> okr own h r -> avoids h q r -> calm nothing (whole own q) h r.
Proof.
  intros own h q r J O A p R. split; [intros []|]. intros [->|[s E]]; [exact (A R)|]. apply A. eapply private; eauto.
Qed.
Lemma calm_avoids : forall G own h q r, calm G (whole own q) h r -> avoids h q r.
Proof. intros G own h q r C R. destruct (C _ R) as [_ X]. apply X. left. reflexivity. Qed.
Lemma whole_cell : forall own q k p, cell own q k p -> whole own q p.
Proof. intros own q k p [s E]. right. eauto. Qed.
Lemma whole_fresh : forall own q h c, inv own h -> kind_of h q = Some (OInst c) -> forall y, List.length h <= y -> ~ whole own q y.
Proof.
  intros own q h c J K y L [->|[s E]].
  - unfold kind_of in K. destruct (get h q) eqn:G; [|discriminate]. apply get_lt in G. lia.
  - rewrite (fresh_own _ _ _ J L) in E. discriminate.
Qed.
Lemma calm_more : forall (G G' C C' : addr -> Prop) h r, (forall p, G p -> G' p) -> (forall p, C p -> C' p) -> calm G' C' h r -> calm G C h r.
Proof. intros G G' C C' h r HG HC A p R. destruct (A p R) as [X Y]. split; intros Z; [apply X|apply Y]; auto. Qed.
Lemma kept_stands : forall own q k h own' h' r v, inv own h -> after nothing (cell own q k) own h own' h' -> okr own h r -> avoids h q r ->
  stands h r v -> stands h' r v.
Proof.
  intros own q k h own' h' r v J A O AV S. eapply calm_stands; [exact A|apply J| |exact S].
  eapply calm_more; [| |eapply avoids_calm; eauto]; [auto|apply whole_cell].
Qed.
Lemma kept_avoids : forall own q k h own' h' r x, inv own h -> after nothing (cell own q k) own h own' h' -> okr own h r -> avoids h q r ->
  avoids h x r -> avoids h' x r.
Proof.
  intros own q k h own' h' r x J A O AV S R. apply S. eapply calm_reach; [exact A|apply J|eapply okr_valid; eauto| |exact R].
  eapply calm_more; [| |exact (avoids_calm _ _ _ _ J O AV)]; [auto|apply whole_cell].
Qed.

(** ** Lists of objects that belong to the query *)
Section Ats.
  Context {X : Type}.
  Fixpoint ats (P : nat -> ref -> X -> Prop) (i : nat) (items : list ref) (xs : list X) : Prop :=
    match items, xs with
    | [], [] => True
    | r :: items', x :: xs' => P i r x /\ ats P (S i) items' xs'
    | _, _ => False
    end.
  Lemma ats_len : forall P items i xs, ats P i items xs -> List.length items = List.length xs.
  Proof. intros P items. induction items; intros i [|x xs] H; cbn in *; try contradiction; auto. destruct H. f_equal. eauto. Qed.
  Lemma ats_app : forall P i1 i xs1 i2 xs2, List.length i1 = List.length xs1 ->
    (ats P i (i1 ++ i2) (xs1 ++ xs2) <-> ats P i i1 xs1 /\ ats P (i + List.length i1) i2 xs2).
  Proof.
    intros P i1. induction i1 as [|r i1 IH]; intros i [|x xs1] i2 xs2 L; cbn in L; try discriminate; cbn [ats app List.length].
    - rewrite Nat.add_0_r. tauto.
    - rewrite (IH (S i) xs1 i2 xs2) by lia. replace (i + S (List.length i1)) with (S i + List.length i1) by lia. tauto.
  Qed.
  Lemma ats_impl : forall (P P' : nat -> ref -> X -> Prop) items i xs, (forall j r x, i <= j -> j < i + List.length items -> P j r x -> P' j r x) -> ats P i items xs -> ats P' i items xs.
  Proof.
    intros P P' items. induction items as [|r items IH]; intros i [|x xs] H A; cbn in *; auto. destruct A as [A B]. split; [apply H; [lia|lia|exact A]|].
    apply IH; [|exact B]. intros j r0 x0 L1 L2. apply H; lia.
  Qed.
  Lemma ats_forall2 : forall (P : nat -> ref -> X -> Prop) (Q : ref -> X -> Prop) items i xs, (forall j r x, P j r x -> Q r x) -> ats P i items xs -> Forall2 Q items xs.
  Proof. intros P Q items. induction items as [|r items IH]; intros i [|x xs] H A; cbn in A; try contradiction; constructor; destruct A; eauto. Qed.
End Ats.

(** Group by, order by: order.py. *)
Definition ord_obj (c : ref) (s : sortd) : obj := MkObj (OInst COrder) [(LAttr "_column_name", c); (LAttr "_sort", sort_ref s)].
Definition ord_at (own : owner) (q : addr) (h : heap) (k : string) (i : nat) (r : ref) (x : ref * sortd) : Prop :=
  exists a, r = RPtr a /\ own a = Some (q, (k, PItem i)) /\ get h a = Some (ord_obj (fst x) (snd x)) /\ okr own h (fst x).
Definition qparts (own : owner) (q : addr) (h : heap) (k : string) (c : cls) (sep : string) (more : list (label * ref)) (p l : addr) (items : list ref) : Prop :=
  parts_at h c sep more p l items /\ own p = Some (q, (k, PPart)) /\ own l = Some (q, (k, PList)).
Definition orders_part (own : owner) (q : addr) (h : heap) (k : string) (c : cls) (p : addr) (os : list (ref * sortd)) : Prop :=
  exists l items, qparts own q h k c ", " [] p l items /\ ats (ord_at own q h k) 0 items os.
(** Columns, conditions, values. *)
Definition conds_part (own : owner) (q : addr) (h : heap) (k : string) (c : cls) (sep : string) (more : list (label * ref)) (p : addr) (items : list ref) : Prop :=
  exists l, qparts own q h k c sep more p l items /\ Forall (okr own h) items.
(** Tables: tables.py. *)
Definition tab_obj (n a : ref) (j : addr) : obj := MkObj (OInst CTable) [(LAttr "_table_name", n); (LAttr "_alias", a); (LAttr "_joins", RPtr j)].
Definition join_obj (ty : jointy) (t o : addr) : obj :=
  MkObj ODict [(LKey, astr "type"); (LVal, jointy_ref ty); (LKey, astr "table"); (LVal, RPtr t); (LKey, astr "ons"); (LVal, RPtr o)].
Definition join_at (own : owner) (q : addr) (h : heap) (k : string) (i j : nat) (r : ref) (x : join ref) : Prop :=
  exists d t tj o ol, r = RPtr d /\ own d = Some (q, (k, PJoin i j)) /\ own t = Some (q, (k, PJTab i j)) /\ own tj = Some (q, (k, PJJoins i j)) /\
    own o = Some (q, (k, POns i j)) /\ own ol = Some (q, (k, POnList i j)) /\
    get h d = Some (join_obj (j_type x) t o) /\ get h t = Some (tab_obj (j_name x) (j_alias x) tj) /\ get h tj = Some (MkObj OList []) /\
    parts_at h COnConditions " AND " [] o ol (j_ons x) /\ okr own h (j_name x) /\ okr own h (j_alias x) /\ Forall (okr own h) (j_ons x).
(** The joins are numbered in some way: _minimize_joins leaves some out and may change their order. *)
Definition numbered (g : nat -> nat) (n : nat) : Prop := forall i j, i < n -> j < n -> g i = g j -> i = j.
Definition tab_at (own : owner) (q : addr) (h : heap) (k : string) (i : nat) (r : ref) (x : table ref) : Prop :=
  exists a j js g, numbered g (List.length js) /\ r = RPtr a /\ own a = Some (q, (k, PItem i)) /\ own j = Some (q, (k, PJoins i)) /\
    get h a = Some (tab_obj (tb_name x) (tb_alias x) j) /\ get h j = Some (MkObj OList (map item js)) /\
    okr own h (tb_name x) /\ okr own h (tb_alias x) /\ ats (fun n => join_at own q h k i (g n)) 0 js (tb_joins x).
Definition tabs_part (own : owner) (q : addr) (h : heap) (k : string) (c : cls) (p : addr) (ts : list (table ref)) : Prop :=
  exists l items, qparts own q h k c ", " [] p l items /\ ats (tab_at own q h k) 0 items ts.

(** ** They stay when their objects do *)
Definition idx (s : place) : option nat :=
  match s with PItem i | PJoins i | PJoin i _ | PJTab i _ | PJJoins i _ | POns i _ | POnList i _ => Some i | _ => None end.
Definition jdx (s : place) : option (nat * nat) :=
  match s with PJoin i j | PJTab i j | PJJoins i j | POns i j | POnList i j => Some (i, j) | _ => None end.
Definition fixed (own : owner) (q : addr) (k : string) (X : place -> Prop) (h h' : heap) : Prop :=
  forall p s, X s -> own p = Some (q, (k, s)) -> get h' p = get h p.
Lemma keep_own : forall own h own' h' p x o, keeps own h own' h' -> get h p = Some o -> own p = x -> own' p = x.
Proof. intros own h own' h' p x o (_ & O & _) G E. rewrite O by (eapply get_lt; eauto). exact E. Qed.
Lemma ord_frame : forall own q h k i r x own' h', keeps own h own' h' -> fixed own q k (fun s => idx s = Some i) h h' ->
  ord_at own q h k i r x -> ord_at own' q h' k i r x.
Proof.
  intros own q h k i r x own' h' K F (a & -> & O & G & C). exists a. split; [reflexivity|]. split; [eapply keep_own; eauto|].
  split; [rewrite (F a (PItem i) eq_refl O); exact G|]. eapply okr_keeps; eauto.
Qed.
Lemma join_frame : forall own q h k i j r x own' h', keeps own h own' h' -> fixed own q k (fun s => jdx s = Some (i, j)) h h' ->
  join_at own q h k i j r x -> join_at own' q h' k i j r x.
Proof.
  intros own q h k i j r x own' h' K F (d & t & tj & o & ol & -> & O1 & O2 & O3 & O4 & O5 & G1 & G2 & G3 & P & C1 & C2 & C3).
  exists d, t, tj, o, ol. split; [reflexivity|]. destruct P as [P1 P2].
  do 5 (split; [eapply keep_own; eauto; fail|]).
  rewrite (F d (PJoin i j) eq_refl O1), (F t (PJTab i j) eq_refl O2), (F tj (PJJoins i j) eq_refl O3). split; [exact G1|]. split; [exact G2|]. split; [exact G3|].
  split; [split; [rewrite (F o (POns i j) eq_refl O4); exact P1|rewrite (F ol (POnList i j) eq_refl O5); exact P2]|].
  split; [eapply okr_keeps; eauto|]. split; [eapply okr_keeps; eauto|eapply oks_keeps; eauto].
Qed.
Lemma tab_frame : forall own q h k i r x own' h', keeps own h own' h' -> fixed own q k (fun s => idx s = Some i) h h' ->
  tab_at own q h k i r x -> tab_at own' q h' k i r x.
Proof.
  intros own q h k i r x own' h' K F (a & j & js & g & GI & -> & O1 & O2 & G1 & G2 & C1 & C2 & A).
  exists a, j, js, g. split; [exact GI|]. split; [reflexivity|]. split; [eapply keep_own; eauto|]. split; [eapply keep_own; eauto|].
  rewrite (F a (PItem i) eq_refl O1), (F j (PJoins i) eq_refl O2). split; [exact G1|]. split; [exact G2|].
  split; [eapply okr_keeps; eauto|]. split; [eapply okr_keeps; eauto|].
  eapply ats_impl; [|exact A]. intros jj r x0 _ _ JA. eapply join_frame; [exact K| |exact JA].
  intros p s X. apply F. destruct s; cbn in *; try discriminate; congruence.
Qed.
Lemma qparts_frame : forall own q h k c sep more p l items own' h', keeps own h own' h' -> fixed own q k (fun s => idx s = None) h h' ->
  qparts own q h k c sep more p l items -> qparts own' q h' k c sep more p l items.
Proof.
  intros own q h k c sep more p l items own' h' K F ([P1 P2] & O1 & O2). split; [|split; eapply keep_own; eauto].
  split; [rewrite (F p PPart eq_refl O1); exact P1|rewrite (F l PList eq_refl O2); exact P2].
Qed.
Lemma fixed_sub : forall own q k (X Y : place -> Prop) h h', (forall s, Y s -> X s) -> fixed own q k X h h' -> fixed own q k Y h h'.
Proof. intros own q k X Y h h' S F p s H. apply F. auto. Qed.
Lemma orders_frame : forall own q h k c p os own' h', keeps own h own' h' -> fixed own q k (fun _ => True) h h' ->
  orders_part own q h k c p os -> orders_part own' q h' k c p os.
Proof.
  intros own q h k c p os own' h' K F (l & items & Q & A). exists l, items. split.
  - eapply qparts_frame; [exact K|exact (fixed_sub _ _ _ _ _ _ _ (fun _ _ => Logic.I) F)|exact Q].
  - eapply ats_impl; [|exact A]. intros j r x _ _. apply ord_frame; [exact K|exact (fixed_sub _ _ _ _ _ _ _ (fun _ _ => Logic.I) F)].
Qed.
Lemma conds_frame : forall own q h k c sep more p items own' h', keeps own h own' h' -> fixed own q k (fun _ => True) h h' ->
  conds_part own q h k c sep more p items -> conds_part own' q h' k c sep more p items.
Proof.
  intros own q h k c sep more p items own' h' K F (l & Q & A). exists l. split.
  - eapply qparts_frame; [exact K|exact (fixed_sub _ _ _ _ _ _ _ (fun _ _ => Logic.I) F)|exact Q].
  - eapply oks_keeps; eauto.
Qed.
Lemma tabs_frame : forall own q h k c p ts own' h', keeps own h own' h' -> fixed own q k (fun _ => True) h h' ->
  tabs_part own q h k c p ts -> tabs_part own' q h' k c p ts.
Proof.
  intros own q h k c p ts own' h' K F (l & items & Q & A). exists l, items. split.
  - eapply qparts_frame; [exact K|exact (fixed_sub _ _ _ _ _ _ _ (fun _ _ => Logic.I) F)|exact Q].
  - eapply ats_impl; [|exact A]. intros j r x _ _. apply tab_frame; [exact K|exact (fixed_sub _ _ _ _ _ _ _ (fun _ _ => Logic.I) F)].
Qed.

(** ** Reading them *)
Lemma d_sort_ref : forall s, d_sort (sort_ref s) = Ok s.
Proof. intros []; reflexivity. Qed.
Lemma d_jointy_ref : forall ty, d_jointy (jointy_ref ty) = Ok ty.
Proof. intros []; reflexivity. Qed.
Lemma order_read : forall h D a c s, get h a = Some (ord_obj c s) -> d_order h D (RPtr a) = (do v <- D c; Ok (v, s)).
Proof.
  intros h D a c s G. unfold d_order, refs_at, attr, obj_at. rewrite G. cbn [bind o_kind o_refs ord_obj].
  destruct (kind_eqb (OInst COrder) (OInst COrder)) as [_|N]; [|contradiction N; reflexivity]. cbn [bind find_attr String.eqb Ascii.eqb Bool.eqb].
  destruct (D c); [|reflexivity]. cbn [bind]. rewrite d_sort_ref. reflexivity.
Qed.
Definition joinM (D : ref -> res val) (x : join ref) : res (join val) :=
  do n <- D (j_name x); do a <- D (j_alias x); do o <- mapM D (j_ons x); Ok (MkJoin (j_type x) n a o).
Definition tableM (D : ref -> res val) (x : table ref) : res (table val) :=
  do n <- D (tb_name x); do a <- D (tb_alias x); do js <- mapM (joinM D) (tb_joins x); Ok (MkTable n a js).
Lemma named_read : forall h D a n al j, get h a = Some (tab_obj n al j) -> d_named h D (RPtr a) = (do x <- D n; do y <- D al; Ok (x, y)).
Proof. intros h D a n al j G. unfold d_named, refs_at, attr, obj_at. rewrite G. reflexivity. Qed.
Lemma joins_attr : forall h a n al j, get h a = Some (tab_obj n al j) -> attr h "_joins" (RPtr a) = Ok (RPtr j).
Proof. intros h a n al j G. unfold attr, obj_at. rewrite G. reflexivity. Qed.
Lemma refs_list : forall h j l, get h j = Some (MkObj OList l) -> refs_at h OList (RPtr j) = Ok l.
Proof. intros h j l G. unfold refs_at, obj_at. rewrite G. reflexivity. Qed.
Lemma join_lookup : forall h d ty t o, get h d = Some (join_obj ty t o) ->
  lookup h "type" (RPtr d) = Ok (jointy_ref ty) /\ lookup h "table" (RPtr d) = Ok (RPtr t) /\ lookup h "ons" (RPtr d) = Ok (RPtr o).
Proof. intros h d ty t o G. unfold lookup, refs_at, obj_at. rewrite G. repeat split; reflexivity. Qed.
Lemma join_read : forall own q h k i j r x D, join_at own q h k i j r x -> d_join h D r = joinM D x.
Proof.
  intros own q h k i j r x D (d & t & tj & o & ol & -> & _ & _ & _ & _ & _ & G1 & G2 & G3 & P & _).
  destruct (join_lookup _ _ _ _ _ G1) as (L1 & L2 & L3). unfold d_join, joinM. rewrite L1. cbn [bind]. rewrite d_jointy_ref. cbn [bind].
  rewrite L2. cbn [bind]. rewrite (named_read _ _ _ _ _ _ G2). destruct (D (j_name x)); [|reflexivity]. cbn [bind].
  destruct (D (j_alias x)); [|reflexivity]. cbn [bind]. rewrite (joins_attr _ _ _ _ _ G2). cbn [bind]. rewrite (refs_list _ _ _ G3). cbn [bind].
  rewrite L3. cbn [bind]. unfold d_conds. rewrite (parts_at_parts _ _ _ _ _ _ _ P). cbn [bind].
  destruct (mapM D (j_ons x)); reflexivity.
Qed.
Lemma mapM_same : forall A B C (f : A -> res C) (g : B -> res C) l l', Forall2 (fun a b => f a = g b) l l' -> mapM f l = mapM g l'.
Proof. intros A B C f g l l' H. induction H as [|a b l l' E H IH]; [reflexivity|]. cbn [mapM]. rewrite E, IH. reflexivity. Qed.
Lemma table_read : forall own q h k i r x D, tab_at own q h k i r x -> d_table h D r = tableM D x.
Proof.
  intros own q h k i r x D (a & j & js & g & _ & -> & _ & _ & G1 & G2 & _ & _ & A). unfold d_table, tableM.
  rewrite (named_read _ _ _ _ _ _ G1). destruct (D (tb_name x)); [|reflexivity]. cbn [bind].
  destruct (D (tb_alias x)); [|reflexivity]. cbn [bind]. rewrite (joins_attr _ _ _ _ _ G1). cbn [bind]. rewrite (refs_list _ _ _ G2). cbn [bind].
  rewrite items_item. rewrite (mapM_same _ _ _ (d_join h D) (joinM D) js (tb_joins x)); [reflexivity|].
  eapply ats_forall2; [|exact A]. intros n r y JA. exact (join_read _ _ _ _ _ _ _ _ _ JA).
Qed.

(** ** The values *)
Definition ord_val (h : heap) (x : ref * sortd) (y : val * sortd) : Prop := stands h (fst x) (fst y) /\ snd x = snd y.
Definition join_val (h : heap) (x : join ref) (y : join val) : Prop :=
  j_type x = j_type y /\ stands h (j_name x) (j_name y) /\ stands h (j_alias x) (j_alias y) /\ Forall2 (stands h) (j_ons x) (j_ons y).
Definition tab_val (h : heap) (x : table ref) (y : table val) : Prop :=
  stands h (tb_name x) (tb_name y) /\ stands h (tb_alias x) (tb_alias y) /\ Forall2 (join_val h) (tb_joins x) (tb_joins y).
Lemma join_val_read : forall h x y, join_val h x y <-> joinM (view h) x = Ok y.
Proof.
  intros h [ty n a o] [ty' n' a' o']. unfold join_val, joinM. cbn [j_type j_name j_alias j_ons]. split.
  - intros (-> & A & B & C). apply stands_view in A, B. apply views in C. rewrite A. cbn [bind]. rewrite B. cbn [bind]. rewrite C. reflexivity.
  - intros H. destruct (view h n) eqn:A; [|discriminate]. cbn [bind] in H. destruct (view h a) eqn:B; [|discriminate]. cbn [bind] in H.
    destruct (mapM (view h) o) eqn:C; [|discriminate]. cbn [bind] in H. injection H as <- <- <- <-.
    split; [reflexivity|]. split; [apply stands_view; exact A|]. split; [apply stands_view; exact B|apply views; exact C].
Qed.
Lemma tab_val_read : forall h x y, tab_val h x y <-> tableM (view h) x = Ok y.
Proof.
  intros h [n a o] [n' a' o']. unfold tab_val, tableM. cbn [tb_name tb_alias tb_joins]. split.
  - intros (A & B & C). apply stands_view in A, B. rewrite A. cbn [bind]. rewrite B. cbn [bind].
    assert (X : mapM (joinM (view h)) o = Ok o'). { apply mapM_forall2. eapply forall2_impl; [|exact C]. intros; apply join_val_read; assumption. }
    rewrite X. reflexivity.
  - intros H. destruct (view h n) eqn:A; [|discriminate]. cbn [bind] in H. destruct (view h a) eqn:B; [|discriminate]. cbn [bind] in H.
    destruct (mapM (joinM (view h)) o) eqn:C; [|discriminate]. cbn [bind] in H. injection H as <- <- <-.
    split; [apply stands_view; exact A|]. split; [apply stands_view; exact B|]. apply mapM_forall2 in C. eapply forall2_impl; [|exact C]. intros; apply join_val_read; assumption.
Qed.
(** The references in a table. *)
Definition join_refs (x : join ref) : list ref := j_name x :: j_alias x :: j_ons x.
Definition tab_refs (x : table ref) : list ref := tb_name x :: tb_alias x :: flat_map join_refs (tb_joins x).
Lemma tab_val_keep : forall h h' x y, (forall r v, In r (tab_refs x) -> stands h r v -> stands h' r v) -> tab_val h x y -> tab_val h' x y.
Proof.
  intros h h' [n a js] [n' a' js'] H (A & B & C). cbn [tb_name tb_alias tb_joins tab_refs] in *. unfold tab_val. cbn [tb_name tb_alias tb_joins].
  split; [apply H; [left; reflexivity|exact A]|]. split; [apply H; [right; left; reflexivity|exact B]|].
  assert (H' : forall r v, In r (flat_map join_refs js) -> stands h r v -> stands h' r v) by (intros; apply H; [right; right; assumption|assumption]).
  clear - C H'. induction C as [|x y js js' (T & A & B & O) C IH]; constructor.
  - assert (H : forall r v, In r (join_refs x) -> stands h r v -> stands h' r v) by (intros; apply H'; [apply in_or_app; left; assumption|assumption]).
    unfold join_refs in H. split; [exact T|]. split; [apply H; [left; reflexivity|exact A]|]. split; [apply H; [right; left; reflexivity|exact B]|].
    assert (H2 : forall r v, In r (j_ons x) -> stands h r v -> stands h' r v) by (intros; apply H; [right; right; assumption|assumption]).
    clear - O H2. induction O; constructor; [apply H2; [left; reflexivity|assumption]|]. apply IHO. intros; apply H2; [right; assumption|assumption].
  - apply IH. intros; apply H'; [apply in_or_app; right; assumption|assumption].
Qed.
Lemma tab_okr : forall own q h k i r x, tab_at own q h k i r x -> Forall (okr own h) (tab_refs x).
Proof.
  intros own q h k i r x (a & j & js & g & _ & -> & _ & _ & _ & _ & C1 & C2 & A). constructor; [exact C1|]. constructor; [exact C2|].
  generalize dependent 0. generalize (tb_joins x) as js'. induction js as [|r js IH]; intros [|x0 js'] n A; cbn in A; try contradiction; [constructor|].
  destruct A as [(d & t & tj & o & ol & _ & _ & _ & _ & _ & _ & _ & _ & _ & _ & D1 & D2 & D3) A]. cbn [flat_map]. apply Forall_app. split; [|eapply IH; exact A].
  constructor; [exact D1|]. constructor; [exact D2|exact D3].
Qed.
