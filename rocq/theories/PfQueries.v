(** Lemmas: whole queries as parts side by side. *)
From Coq Require Import Lia.
From Verif Require Import Base NumFmt Value Backend Eq Render ParseArgs Build Queries Heap SpecHeap PfHeap PfHeapAlike PfHeapFrame PfHeapView HeapBuild SpecShare PfShare PfOwn PfParts PfNewItems PfMethods PfLayout PfOrders PfTables PfJoins PfCells PfConflict.
Open Scope nat_scope.
Local Arguments view : simpl never.

(** ** Reading the parts *)
Definition reads {L V} (P : partd L V) (rd : heap -> res V) : Prop := forall own h x v, pd_at P own h x -> (rd h = Ok v <-> pd_val P h x v).
Lemma refs_inst : forall h p c l, get h p = Some (MkObj (OInst c) l) -> refs_at h (OInst c) (RPtr p) = Ok l.
Proof. intros h p c l G. unfold refs_at, obj_at. rewrite G. cbn [bind o_kind]. destruct (kind_eqb (OInst c) (OInst c)) as [_|N]; [reflexivity|contradiction N; reflexivity]. Qed.
Lemma attr_inst : forall h p o k, get h p = Some o -> attr h k (RPtr p) = find_attr k (o_refs o).
Proof. intros h p o k G. unfold attr, obj_at. rewrite G. reflexivity. Qed.
Lemma reads_conds : forall q k c sep more p, reads (condsd view q k c sep more p) (fun h => d_conds h (view h) c (RPtr p)).
Proof. intros q k c sep more p own h x v (l & (P & _) & _). unfold d_conds. rewrite (parts_at_parts _ _ _ _ _ _ _ P). apply mapM_forall2. Qed.
Lemma reads_columns : forall q k sep p, reads (condsd see_column q k CColumns sep [] p) (fun h => d_columns h (view h) (RPtr p)).
Proof. intros q k sep p own h x v (l & (P & _) & _). unfold d_columns. rewrite (parts_at_parts _ _ _ _ _ _ _ P). apply mapM_forall2. Qed.
Lemma reads_rows : forall q k p, reads (rowsd q k p) (fun h => do l <- parts h CMultipleValues (RPtr p); mapM (d_conds h (view h) CValues) l).
Proof. intros q k p own h x v (l & (P & _) & _). rewrite (parts_at_parts _ _ _ _ _ _ _ P). apply mapM_forall2. Qed.
Lemma reads_orders : forall q k c p, reads (ordersd q k c p) (fun h => d_orders h (view h) c (RPtr p)).
Proof.
  intros q k c p own h x v (l & items & (P & _) & A). unfold d_orders. rewrite (parts_at_parts _ _ _ _ _ _ _ P). cbn [bind].
  rewrite (mapM_same _ _ _ (d_order h (view h)) (fun y => do w <- view h (fst y); Ok (w, snd y)) items x).
  2: { eapply ats_forall2; [|exact A]. intros i r [c0 s] X. destruct X as (a & -> & _ & G & _). exact (order_read _ _ _ _ _ G). }
  rewrite mapM_forall2. cbn [ordersd pd_val]. split; intros F; (eapply forall2_impl; [|exact F]); intros [c0 s] [c1 s1] E; unfold ord_val in *; cbn [fst snd] in *.
  - destruct (view h c0) eqn:V; [|discriminate]. injection E as <- <-. split; [apply stands_view; exact V|reflexivity].
  - destruct E as [E <-]. apply stands_view in E. rewrite E. reflexivity.
Qed.
Lemma reads_tables : forall q k c p, reads (tabsd q k c p) (fun h => d_tables h (view h) c (RPtr p)).
Proof.
  intros q k c p own h x v (l & items & (P & _) & A). unfold d_tables. rewrite (parts_at_parts _ _ _ _ _ _ _ P). cbn [bind].
  rewrite (mapM_same _ _ _ (d_table h (view h)) (tableM (view h)) items x).
  2: { eapply ats_forall2; [|exact A]. intros i r y X. exact (table_read _ _ _ _ _ _ _ _ X). }
  rewrite mapM_forall2. cbn [tabsd pd_val]. split; intros F; (eapply forall2_impl; [|exact F]); intros; apply tab_val_read; assumption.
Qed.
Lemma okeq : forall A (a b : A), (Ok a = Ok b) <-> a = b.
Proof. intros A a b. split; congruence. Qed.
Lemma reads_limits : forall q k p, reads (limd q k p) (fun h => d_limits h (RPtr p)).
Proof.
  intros q k p own h x v [G _]. unfold d_limits. rewrite (refs_inst _ _ _ _ G). cbn [bind]. rewrite !(attr_inst _ _ _ _ G). cbn. destruct x as [[a|] [b|]]; cbn; apply okeq.
Qed.
Lemma reads_forupd : forall q k p, reads (boold q k CSelectForUpdate "_for_update" p) (fun h => d_forupd h (RPtr p)).
Proof. intros q k p own h x v [G _]. unfold d_forupd. rewrite (refs_inst _ _ _ _ G). cbn [bind]. rewrite !(attr_inst _ _ _ _ G). cbn. apply okeq. Qed.
Lemma reads_keyword : forall q k p, reads (boold q k CInsertKeyword "_is_replace" p) (fun h => d_keyword h (RPtr p)).
Proof. intros q k p own h x v [G _]. unfold d_keyword. rewrite (refs_inst _ _ _ _ G). cbn [bind]. rewrite !(attr_inst _ _ _ _ G). cbn. apply okeq. Qed.
Lemma option_read : forall V q k c p (kvs : V -> list (string * string)) own h x key, pd_at (optsd q k c p kvs) own h x ->
  option_at h key (RPtr p) = do y <- find_key key (pairs_of (kv_refs (kvs x))); d_str y.
Proof.
  intros V q k c p kvs own h x key (d & G & _ & D & _). unfold option_at. rewrite (attr_inst _ _ _ _ G). cbn. unfold lookup, refs_at, obj_at. rewrite D. reflexivity.
Qed.
Lemma reads_ignore : forall q k c p, reads (optsd q k c p ign_kvs) (fun h => do _ <- refs_at h (OInst c) (RPtr p); flag h "ignore" (RPtr p)).
Proof.
  intros q k c p own h x v PA. unfold flag. rewrite (option_read _ _ _ _ _ _ _ _ _ _ PA). destruct PA as (d & G & _). rewrite (refs_inst _ _ _ _ G). destruct x; cbn; apply okeq.
Qed.
Lemma on_off_read : forall b, (do s <- d_str (astr (onoff b)); on_off s) = Ok b.
Proof. intros []; reflexivity. Qed.
Lemma flag_read : forall q k p own h x key b, pd_at (optsd q k CSelectOptions p sel_kvs) own h x ->
  find_key key (pairs_of (kv_refs (sel_kvs x))) = Ok (astr (onoff b)) -> flag h key (RPtr p) = Ok b.
Proof. intros q k p own h x key b PA E. unfold flag. rewrite (option_read _ _ _ _ _ _ _ _ _ _ PA), E. cbn [bind]. apply on_off_read. Qed.
Lemma reads_selopts : forall q k p, reads (optsd q k CSelectOptions p sel_kvs) (fun h => d_selopts h (RPtr p)).
Proof.
  intros q k p own h x v PA. unfold d_selopts.
  rewrite (flag_read _ _ _ _ _ _ "sql_small_result" (so_small x) PA), (flag_read _ _ _ _ _ _ "sql_big_result" (so_big x) PA), (flag_read _ _ _ _ _ _ "sql_buffer_result" (so_buffer x) PA),
    (flag_read _ _ _ _ _ _ "sql_calc_found_rows" (so_calc x) PA), (flag_read _ _ _ _ _ _ "straight_join" (so_straight x) PA), (flag_read _ _ _ _ _ _ "high_priority" (so_high x) PA)
    by reflexivity.
  rewrite !(option_read _ _ _ _ _ _ _ _ _ _ PA).
  assert (E1 : find_key "sql_cache" (pairs_of (kv_refs (sel_kvs x))) = Ok (astr (cache_str (so_cache x)))) by reflexivity.
  assert (E2 : find_key "duplicated" (pairs_of (kv_refs (sel_kvs x))) = Ok (astr (dup_str (so_dup x)))) by reflexivity.
  rewrite E1, E2. destruct PA as (d & G & _). rewrite (refs_inst _ _ _ _ G). destruct x as [c du b1 b2 b3 b4 b5 b6]. cbn [so_cache so_dup so_small so_big so_buffer so_calc so_straight so_high].
  destruct c; destruct du; cbn; apply okeq.
Qed.
Lemma reads_out : forall q k p, reads (outd q k p) (fun h => d_outfile h (view h) (RPtr p)).
Proof.
  intros q k p own h x v (G & _). unfold d_outfile. rewrite (refs_inst _ _ _ _ G). cbn [bind]. rewrite !(attr_inst _ _ _ _ G). cbn [o_refs out_refs find_attr String.eqb Ascii.eqb Bool.eqb bind outd pd_val]. unfold opt_val.
  destruct v as [v1 v2 v3 v4]. cbn [o_file o_fields o_lines o_encl]. split.
  - intros H. destruct (d_opt (view h) (x OFile)); [|discriminate]. cbn [bind] in H. destruct (d_opt (view h) (x OFields)); [|discriminate]. cbn [bind] in H.
    destruct (d_opt (view h) (x OLines)); [|discriminate]. cbn [bind] in H. destruct (d_opt (view h) (x OEncl)); [|discriminate]. cbn [bind] in H. injection H as <- <- <- <-. auto.
  - intros (-> & -> & -> & ->). reflexivity.
Qed.
Lemma reads_conflict : forall q k p, reads (conflictd q k p) (fun h => do up <- d_conds h (view h) COnConflict (RPtr p);
  do c <- attr h "_on_conflict" (RPtr p); do c' <- d_conflict h c; Ok (c', up)).
Proof.
  intros q k p own h [r x] [c v] [O PA]. cbn [fst snd] in *. pose proof (reads_conds q k COnConflict ", " [(LAttr "_on_conflict", r)] p own h x v PA) as RC.
  destruct PA as (l & ([G _] & _) & _). rewrite !(attr_inst _ _ _ _ G). cbn [o_refs find_attr String.eqb Ascii.eqb Bool.eqb bind conflictd pd_val fst snd]. split.
  - intros H. destruct (d_conds h (view h) COnConflict (RPtr p)) as [up|] eqn:E; [|discriminate]. cbn [bind] in H. destruct (d_conflict h r) eqn:E2; [|discriminate]. cbn [bind] in H.
    injection H as <- <-. split; [reflexivity|]. apply RC. reflexivity.
  - intros [A B]. apply RC in B. rewrite B. cbn [bind]. rewrite A. reflexivity.
Qed.

(** ** The query object *)
Definition entries (ks : list string) (a : string -> addr) : list (label * ref) := map (fun k => (LAttr (String.append "_" k), RPtr (a k))) ks.
Definition qdict (ks : list string) (a : string -> addr) : list (label * ref) := flat_map (fun k => [(LKey, astr k); (LVal, RPtr (a k))]) ks.
Definition qobjd (q : addr) (c : cls) (ks : list string) (more : bool -> list (label * ref)) (d : addr) (a : string -> addr) : partd bool bool :=
  MkPartd (fun own h b => get h q = Some (MkObj (OInst c) ((LAttr "_queryparts", RPtr d) :: entries ks a ++ more b)) /\ own q = None /\
             get h d = Some (MkObj ODict (qdict ks a)) /\ own d = Some (q, ("", PDict))) (fun h x v => x = v) (fun _ => []).
Lemma good_qobj : forall q c ks more d a, good (qobjd q c ks more d a) q (fun k => k = None \/ k = Some "").
Proof.
  intros q c ks more d a. split.
  - intros own h x own' h' K F (A & B & C & D). assert (LQ : q < List.length h) by (eapply get_lt; eauto).
    split; [rewrite (F q None (or_introl eq_refl) eq_refl); exact A|]. split; [destruct K as (_ & K & _); rewrite K; auto|].
    split; [|eapply keep_own; eauto]. rewrite (F d (Some "")); [exact C|auto|exists PDict; exact D].
  - intros. constructor.
  - auto.
Qed.
Lemma qobj_kind : forall q c ks more d a own h b, pd_at (qobjd q c ks more d a) own h b -> kind_of h q = Some (OInst c) /\ own q = None.
Proof. intros q c ks more d a own h b (A & B & _). unfold kind_of. rewrite A. auto. Qed.
Definition flagm (n : string) (b : bool) : list (label * ref) := [(LAttr n, abool b)].
Lemma flag_spec : forall (G : addr -> Prop) q c ks n d a own h x b h' o (K : bool -> bool * outcome -> Prop), inv own h -> pd_at (qobjd q c ks (flagm n) d a) own h x ->
  (forall b b', set_attr n (abool b') ((LAttr "_queryparts", RPtr d) :: entries ks a ++ flagm n b) = (LAttr "_queryparts", RPtr d) :: entries ks a ++ flagm n b') ->
  (forall k, In k ks -> exists s, own (a k) = Some (q, s)) ->
  assign (RPtr q) n (abool b) h = (h', o) -> ((forall y, ~ G y) -> forall y, K x y -> y = (b, Ok tt)) ->
  acts (qobjd q c ks (flagm n) d a) G (fun own => at_slot own q None) q own h x h' o K.
Proof.
  intros G q c ks n d a own h x b h' o K J (A & B & C & D) SA MI R HK. unfold assign, change in R. rewrite A, SA in R. injection R as <- <-.
  assert (NE : d <> q) by (intros ->; congruence). assert (LQ : q < List.length h) by (eapply get_lt; eauto).
  exists own, b. split; [|split].
  - eapply after_write; [exact J|exact A|right; reflexivity|]. intros l r I. destruct I as [I|I].
    + injection I as <- <-. right. exists q. split; [|left; reflexivity]. split; [eapply owned_lt; eauto|rewrite D; reflexivity].
    + apply in_app_or in I. destruct I as [I|I].
      * apply in_map_iff in I. destruct I as (k & E & I). injection E as <- <-. destruct (MI k I) as [s O]. right. exists q. split; [|left; reflexivity]. split; [eapply owned_lt; eauto|rewrite O; reflexivity].
      * destruct I as [I|[]]. injection I as <- <-. left. exact Logic.I.
  - split; [apply get_put_same; exact LQ|]. split; [exact B|]. split; [rewrite get_put_other by exact NE; exact C|exact D].
  - intros NG v y KK PV _. cbn in PV. subst v. rewrite (HK NG y KK). cbn. auto.
Qed.
Lemma part_ref : forall q c ks more d a own h b k, pd_at (qobjd q c ks more d a) own h b ->
  find_attr (String.append "_" k) ((LAttr "_queryparts", RPtr d) :: entries ks a ++ more b) = Ok (RPtr (a k)) ->
  attr h (String.append "_" k) (RPtr q) = Ok (RPtr (a k)).
Proof. intros q c ks more d a own h b k (A & _) E. rewrite (attr_inst _ _ _ _ A). exact E. Qed.
Lemma part_read : forall q c ks more d a own h b k, pd_at (qobjd q c ks more d a) own h b ->
  find_attr (String.append "_" k) ((LAttr "_queryparts", RPtr d) :: entries ks a ++ more b) = Ok (RPtr (a k)) ->
  find_key k (pairs_of (qdict ks a)) = Ok (RPtr (a k)) -> (exists c l, get h (a k) = Some (MkObj (OInst c) l)) -> qpart h k (RPtr q) = Ok (RPtr (a k)).
Proof.
  intros q c ks more d a own h b k PA E1 E2 (c' & l & G). unfold qpart. rewrite (part_ref _ _ _ _ _ _ _ _ _ _ PA E1). destruct PA as (A & _ & D & _).
  rewrite (attr_inst _ _ _ _ A). cbn [o_refs find_attr String.eqb Ascii.eqb Bool.eqb bind]. unfold lookup, refs_at, obj_at. rewrite D.
  cbn [bind o_kind o_refs]. destruct (kind_eqb ODict ODict) as [_|N]; [|contradiction N; reflexivity]. cbn [bind]. rewrite E2. cbn [bind].
  unfold same_inst. rewrite Nat.eqb_refl, G. reflexivity.
Qed.
