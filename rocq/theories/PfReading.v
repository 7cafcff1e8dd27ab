(** Lemmas: what a query object stands for, from what its parts stand for. *)
From Coq Require Import Lia.
From Verif Require Import Base NumFmt Value Backend Eq Render ParseArgs Build Queries Heap SpecHeap PfHeap PfHeapAlike PfHeapFrame PfHeapView HeapBuild SpecShare PfShare PfOwn PfParts PfNewItems PfMethods PfLayout PfOrders PfTables PfJoins PfCells PfConflict PfQueries PfCalls.
Open Scope nat_scope.
Local Arguments view : simpl never.

Lemma body_iff : forall h r v, stands h r v <-> d_body h (view h) r = Ok v.
Proof.
  intros h r v. split; [|apply body_stands]. intros S. apply stands_view in S. unfold view in S.
  apply (decode_mono h _ (Datatypes.S (Datatypes.S (List.length h)))) in S; [exact S|lia].
Qed.
Lemma read_step : forall L V (P : partd L V) rd own h x A (k : V -> res A) w, reads P rd -> pd_at P own h x ->
  ((do v <- rd h; k v) = Ok w <-> exists v, pd_val P h x v /\ k v = Ok w).
Proof.
  intros L V P rd own h x A k w R PA. split.
  - intros H. destruct (rd h) as [v|e] eqn:E; [|discriminate]. exists v. split; [apply (R own h x v PA); exact E|exact H].
  - intros (v & E & H). apply (R own h x v PA) in E. rewrite E. exact H.
Qed.
Definition inst_at (h : heap) (p : addr) : Prop := exists c l, get h p = Some (MkObj (OInst c) l).
Lemma inst_conds : forall A (see : heap -> ref -> res A) q k c sep more p own h x, pd_at (condsd see q k c sep more p) own h x -> inst_at h p.
Proof. intros A see q k c sep more p own h x (l & ([G _] & _) & _). eexists _, _. exact G. Qed.
Lemma inst_tabs : forall q k c p own h x, pd_at (tabsd q k c p) own h x -> inst_at h p.
Proof. intros q k c p own h x (l & i & ([G _] & _) & _). eexists _, _. exact G. Qed.
Lemma inst_orders : forall q k c p own h x, pd_at (ordersd q k c p) own h x -> inst_at h p.
Proof. intros q k c p own h x (l & i & ([G _] & _) & _). eexists _, _. exact G. Qed.
Lemma inst_cell : forall V q k c p (mk : V -> list (label * ref)) own h x, pd_at (celld q k c p mk) own h x -> inst_at h p.
Proof. intros V q k c p mk own h x [G _]. eexists _, _. exact G. Qed.
Lemma inst_opts : forall V q k c p (kvs : V -> list (string * string)) own h x, pd_at (optsd q k c p kvs) own h x -> inst_at h p.
Proof. intros V q k c p kvs own h x (d & G & _). eexists _, _. exact G. Qed.
Lemma inst_out : forall q k p own h x, pd_at (outd q k p) own h x -> inst_at h p.
Proof. intros q k p own h x [G _]. eexists _, _. exact G. Qed.
Lemma inst_conflict : forall q k p own h x, pd_at (conflictd q k p) own h x -> inst_at h p.
Proof. intros q k p own h x [_ P]. exact (inst_conds _ _ _ _ _ _ _ _ _ _ _ P). Qed.
Ltac an_inst := first [eapply inst_conds; eassumption|eapply inst_tabs; eassumption|eapply inst_orders; eassumption|eapply inst_cell; eassumption|eapply inst_opts; eassumption|eapply inst_out; eassumption|eapply inst_conflict; eassumption].
Ltac at_key PQ k := rewrite (part_read _ _ _ _ _ _ _ _ _ k PQ eq_refl eq_refl) by an_inst; cbn [bind].

Definition off {I R} (x : I * (bool * R)) : I * (bool * R) := (fst x, (false, snd (snd x))).
Lemma assoc : forall A B C (x : res A) (f : A -> res B) (g : B -> res C), (do b <- (do a <- x; f a); g b) = (do a <- x; do b <- f a; g b).
Proof. intros A B C [a|e] f g; reflexivity. Qed.
Lemma assoc3 : forall A B B2 C (x : res A) (f : A -> res B) (g : A -> B -> res B2) (k : B2 -> A -> res C),
  (do a <- x; do b <- f a; do c <- g a b; k c a) = (do p <- (do a <- x; do b <- f a; do c <- g a b; Ok (c, a)); k (fst p) (snd p)).
Proof. intros A B B2 C [a|e] f g k; [|reflexivity]. cbn [bind]. destruct (f a); [|reflexivity]. cbn [bind]. destruct (g a a0); reflexivity. Qed.
Lemma sel_reads : forall q own h x v, pd_at (seld q) own h x -> (d_select h (view h) (RPtr q) = Ok v <-> pd_val (seld q) h (off x) v).
Proof.
  intros q own h [[d a] (b & x1 & x2 & x3 & x4 & x5 & x6 & x7 & x8 & x9 & x10)] v PA.
  destruct PA as (PQ & P1 & P2 & P3 & P4 & P5 & P6 & P7 & P8 & P9 & P10). cbn [fst snd] in *. unfold d_select.
  at_key PQ "select_options". at_key PQ "columns". at_key PQ "tables". at_key PQ "where". at_key PQ "group_by". at_key PQ "having". at_key PQ "order_by". at_key PQ "limit". at_key PQ "into_outfile". at_key PQ "select_for_update".
  split.
  - intros H.
    rewrite (read_step _ _ _ _ _ _ _ _ _ _ (reads_selopts _ _ _) P1) in H. destruct H as (v1 & V1 & H).
    rewrite (read_step _ _ _ _ _ _ _ _ _ _ (reads_columns _ _ _ _) P2) in H. destruct H as (v2 & V2 & H).
    rewrite (read_step _ _ _ _ _ _ _ _ _ _ (reads_tables _ _ _ _) P3) in H. destruct H as (v3 & V3 & H).
    rewrite (read_step _ _ _ _ _ _ _ _ _ _ (reads_conds _ _ _ _ _ _) P4) in H. destruct H as (v4 & V4 & H).
    rewrite (read_step _ _ _ _ _ _ _ _ _ _ (reads_orders _ _ _ _) P5) in H. destruct H as (v5 & V5 & H).
    rewrite (read_step _ _ _ _ _ _ _ _ _ _ (reads_conds _ _ _ _ _ _) P6) in H. destruct H as (v6 & V6 & H).
    rewrite (read_step _ _ _ _ _ _ _ _ _ _ (reads_orders _ _ _ _) P7) in H. destruct H as (v7 & V7 & H).
    rewrite (read_step _ _ _ _ _ _ _ _ _ _ (reads_limits _ _ _) P8) in H. destruct H as (v8 & V8 & H).
    rewrite (read_step _ _ _ _ _ _ _ _ _ _ (reads_out _ _ _) P9) in H. destruct H as (v9 & V9 & H).
    rewrite (read_step _ _ _ _ _ _ _ _ _ _ (reads_forupd _ _ _) P10) in H. destruct H as (v10 & V10 & H).
    injection H as <-; (split; [reflexivity|]); repeat (split; [assumption|]); assumption.
  - destruct v. intros (_ & V1 & V2 & V3 & V4 & V5 & V6 & V7 & V8 & V9 & V10). 
    rewrite (read_step _ _ _ _ _ _ _ _ _ _ (reads_selopts _ _ _) P1). eexists. split; [exact V1|].
    rewrite (read_step _ _ _ _ _ _ _ _ _ _ (reads_columns _ _ _ _) P2). eexists. split; [exact V2|].
    rewrite (read_step _ _ _ _ _ _ _ _ _ _ (reads_tables _ _ _ _) P3). eexists. split; [exact V3|].
    rewrite (read_step _ _ _ _ _ _ _ _ _ _ (reads_conds _ _ _ _ _ _) P4). eexists. split; [exact V4|].
    rewrite (read_step _ _ _ _ _ _ _ _ _ _ (reads_orders _ _ _ _) P5). eexists. split; [exact V5|].
    rewrite (read_step _ _ _ _ _ _ _ _ _ _ (reads_conds _ _ _ _ _ _) P6). eexists. split; [exact V6|].
    rewrite (read_step _ _ _ _ _ _ _ _ _ _ (reads_orders _ _ _ _) P7). eexists. split; [exact V7|].
    rewrite (read_step _ _ _ _ _ _ _ _ _ _ (reads_limits _ _ _) P8). eexists. split; [exact V8|].
    rewrite (read_step _ _ _ _ _ _ _ _ _ _ (reads_out _ _ _) P9). eexists. split; [exact V9|].
    rewrite (read_step _ _ _ _ _ _ _ _ _ _ (reads_forupd _ _ _) P10). eexists. split; [exact V10|].
    reflexivity.
Qed.
Lemma upd_reads : forall q own h x v, pd_at (updd q) own h x -> (d_update h (view h) (RPtr q) = Ok v <-> pd_val (updd q) h x v).
Proof.
  intros q own h [[d a] (b & x1 & x2 & x3 & x4)] v PA.
  destruct PA as (PQ & P1 & P2 & P3 & P4). cbn [fst snd] in *. unfold d_update.
  at_key PQ "update_options". at_key PQ "tables". at_key PQ "values". at_key PQ "where".
  assert (FL : attr h "_allow_update_all" (RPtr q) = Ok (abool b)) by (rewrite (attr_inst _ _ _ _ (proj1 PQ)); reflexivity). rewrite FL. cbn [bind].
  split.
  - intros H.
    rewrite <- (assoc _ _ _ (refs_at h (OInst CUpdateOptions) _)) in H.
    rewrite (read_step _ _ _ _ _ _ _ _ _ _ (reads_ignore _ _ _ _) P1) in H. destruct H as (v1 & V1 & H).
    rewrite (read_step _ _ _ _ _ _ _ _ _ _ (reads_tables _ _ _ _) P2) in H. destruct H as (v2 & V2 & H).
    rewrite (read_step _ _ _ _ _ _ _ _ _ _ (reads_conds _ _ _ _ _ _) P3) in H. destruct H as (v3 & V3 & H).
    rewrite (read_step _ _ _ _ _ _ _ _ _ _ (reads_conds _ _ _ _ _ _) P4) in H. destruct H as (v4 & V4 & H).
    destruct b; cbn in H; injection H as <-; (split; [reflexivity|]); repeat (split; [assumption|]); assumption.
  - destruct v. intros (E & V1 & V2 & V3 & V4). cbn in E. subst b.
    rewrite <- (assoc _ _ _ (refs_at h (OInst CUpdateOptions) _)).
    rewrite (read_step _ _ _ _ _ _ _ _ _ _ (reads_ignore _ _ _ _) P1). eexists. split; [exact V1|].
    rewrite (read_step _ _ _ _ _ _ _ _ _ _ (reads_tables _ _ _ _) P2). eexists. split; [exact V2|].
    rewrite (read_step _ _ _ _ _ _ _ _ _ _ (reads_conds _ _ _ _ _ _) P3). eexists. split; [exact V3|].
    rewrite (read_step _ _ _ _ _ _ _ _ _ _ (reads_conds _ _ _ _ _ _) P4). eexists. split; [exact V4|].
    destruct u_allow; reflexivity.
Qed.
Lemma del_reads : forall q own h x v, pd_at (deld q) own h x -> (d_delete h (view h) (RPtr q) = Ok v <-> pd_val (deld q) h x v).
Proof.
  intros q own h [[d a] (b & x1 & x2 & x3 & x4)] v PA.
  destruct PA as (PQ & P1 & P2 & P3 & P4). cbn [fst snd] in *. unfold d_delete.
  at_key PQ "delete_options". at_key PQ "tables". at_key PQ "references". at_key PQ "where".
  assert (FL : attr h "_allow_delete_all" (RPtr q) = Ok (abool b)) by (rewrite (attr_inst _ _ _ _ (proj1 PQ)); reflexivity). rewrite FL. cbn [bind].
  split.
  - intros H.
    rewrite <- (assoc _ _ _ (refs_at h (OInst CDeleteOptions) _)) in H.
    rewrite (read_step _ _ _ _ _ _ _ _ _ _ (reads_ignore _ _ _ _) P1) in H. destruct H as (v1 & V1 & H).
    rewrite (read_step _ _ _ _ _ _ _ _ _ _ (reads_tables _ _ _ _) P2) in H. destruct H as (v2 & V2 & H).
    rewrite (read_step _ _ _ _ _ _ _ _ _ _ (reads_tables _ _ _ _) P3) in H. destruct H as (v3 & V3 & H).
    rewrite (read_step _ _ _ _ _ _ _ _ _ _ (reads_conds _ _ _ _ _ _) P4) in H. destruct H as (v4 & V4 & H).
    destruct b; cbn in H; injection H as <-; (split; [reflexivity|]); repeat (split; [assumption|]); assumption.
  - destruct v. intros (E & V1 & V2 & V3 & V4). cbn in E. subst b.
    rewrite <- (assoc _ _ _ (refs_at h (OInst CDeleteOptions) _)).
    rewrite (read_step _ _ _ _ _ _ _ _ _ _ (reads_ignore _ _ _ _) P1). eexists. split; [exact V1|].
    rewrite (read_step _ _ _ _ _ _ _ _ _ _ (reads_tables _ _ _ _) P2). eexists. split; [exact V2|].
    rewrite (read_step _ _ _ _ _ _ _ _ _ _ (reads_tables _ _ _ _) P3). eexists. split; [exact V3|].
    rewrite (read_step _ _ _ _ _ _ _ _ _ _ (reads_conds _ _ _ _ _ _) P4). eexists. split; [exact V4|].
    destruct d_allow; reflexivity.
Qed.
Lemma ins_reads : forall q own h x v, pd_at (insd q) own h x -> (d_insert h (view h) (RPtr q) = Ok v <-> pd_val (insd q) h (off x) v).
Proof.
  intros q own h [[d a] (b & x1 & x2 & x3 & x4 & x5 & x6)] v PA.
  destruct PA as (PQ & P1 & P2 & P3 & P4 & P5 & P6). cbn [fst snd] in *. unfold d_insert.
  at_key PQ "keyword". at_key PQ "insert_options". at_key PQ "tables". at_key PQ "values". at_key PQ "on_duplicate_key_update". at_key PQ "on_conflict_do_update".
  split.
  - intros H. rewrite (read_step _ _ _ _ _ _ _ _ _ _ (reads_keyword _ _ _) P1) in H. destruct H as (v1 & V1 & H).
    rewrite <- (assoc _ _ _ (refs_at h (OInst CInsertOptions) _)) in H. rewrite (read_step _ _ _ _ _ _ _ _ _ _ (reads_ignore _ _ _ _) P2) in H. destruct H as (v2 & V2 & H).
    rewrite (read_step _ _ _ _ _ _ _ _ _ _ (reads_tables _ _ _ _) P3) in H. destruct H as (v3 & V3 & H).
    rewrite <- (assoc _ _ _ (parts h CMultipleValues _)) in H. rewrite (read_step _ _ _ _ _ _ _ _ _ _ (reads_rows _ _ _) P4) in H. destruct H as (v4 & V4 & H).
    rewrite (read_step _ _ _ _ _ _ _ _ _ _ (reads_conds _ _ _ _ _ _) P5) in H. destruct H as (v5 & V5 & H).
    rewrite (assoc3 _ _ _ _ _ (fun _ => attr h "_on_conflict" (RPtr (a "on_conflict_do_update"))) (fun _ => d_conflict h) (fun c' up => Ok (MkIns v1 v2 v3 v4 v5 c' up))) in H.
    rewrite (read_step _ _ _ _ _ _ _ _ _ _ (reads_conflict _ _ _) P6) in H. destruct H as ([v6 v7] & V6 & H). injection H as <-.
    split; [reflexivity|]. repeat (split; [assumption|]). assumption.
  - destruct v as [v1 v2 v3 v4 v5 v6 v7]. intros (_ & V1 & V2 & V3 & V4 & V5 & V6).
    rewrite (read_step _ _ _ _ _ _ _ _ _ _ (reads_keyword _ _ _) P1). eexists. split; [exact V1|].
    rewrite <- (assoc _ _ _ (refs_at h (OInst CInsertOptions) _)). rewrite (read_step _ _ _ _ _ _ _ _ _ _ (reads_ignore _ _ _ _) P2). eexists. split; [exact V2|].
    rewrite (read_step _ _ _ _ _ _ _ _ _ _ (reads_tables _ _ _ _) P3). eexists. split; [exact V3|].
    rewrite <- (assoc _ _ _ (parts h CMultipleValues _)). rewrite (read_step _ _ _ _ _ _ _ _ _ _ (reads_rows _ _ _) P4). eexists. split; [exact V4|].
    rewrite (read_step _ _ _ _ _ _ _ _ _ _ (reads_conds _ _ _ _ _ _) P5). eexists. split; [exact V5|].
    rewrite (assoc3 _ _ _ _ _ (fun _ => attr h "_on_conflict" (RPtr (a "on_conflict_do_update"))) (fun _ => d_conflict h) (fun c' up => Ok (MkIns v1 v2 v3 v4 v5 c' up))).
    rewrite (read_step _ _ _ _ _ _ _ _ _ _ (reads_conflict _ _ _) P6). eexists. split; [exact V6|]. reflexivity.
Qed.

(** ** Queries of any kind *)
Definition laid (k : qkind) (q : addr) (own : owner) (h : heap) : Prop :=
  match k with
  | QSelect => exists x, pd_at (seld q) own h x
  | QInsert => exists x, pd_at (insd q) own h x
  | QUpdate => exists x, pd_at (updd q) own h x
  | QDelete => exists x, pd_at (deld q) own h x
  end.
(** ... that stand for a value and have nothing inside that has the query inside. *)
Definition said (k : qkind) (q : addr) (own : owner) (h : heap) (v : val) : Prop :=
  match k with
  | QSelect => exists x u, v = VSelect u /\ pd_at (seld q) own h x /\ pd_val (seld q) h x u /\ Forall (avoids h q) (pd_refs (seld q) x)
  | QInsert => exists x u, v = VInsert u /\ pd_at (insd q) own h x /\ pd_val (insd q) h x u /\ Forall (avoids h q) (pd_refs (insd q) x)
  | QUpdate => exists x u, v = VUpdate u /\ pd_at (updd q) own h x /\ pd_val (updd q) h x u /\ Forall (avoids h q) (pd_refs (updd q) x)
  | QDelete => exists x u, v = VDelete u /\ pd_at (deld q) own h x /\ pd_val (deld q) h x u /\ Forall (avoids h q) (pd_refs (deld q) x)
  end.
Definition cls_of (k : qkind) : cls := match k with QSelect => CSelect | QInsert => CInsert | QUpdate => CUpdate | QDelete => CDelete end.
Lemma laid_kind : forall k q own h, laid k q own h -> kind_of h q = Some (OInst (cls_of k)) /\ own q = None.
Proof. intros [] q own h [[[d a] (b & x)] [PQ _]]; exact (qobj_kind _ _ _ _ _ _ _ _ _ PQ). Qed.
Lemma said_laid : forall k q own h v, said k q own h v -> laid k q own h.
Proof. intros [] q own h v (x & u & _ & P & _); exists x; exact P. Qed.
Lemma inst_stands : forall h q c v, kind_of h q = Some (OInst c) -> (stands h (RPtr q) v <-> d_inst h (view h) c (RPtr q) = Ok v).
Proof.
  intros h q c v K. rewrite body_iff. unfold d_body, obj_at. unfold kind_of in K. destruct (get h q) as [[k l]|] eqn:G; [|discriminate]. injection K as ->. reflexivity.
Qed.
Lemma rmap_ok : forall A B (f : A -> B) x v, rmap f x = Ok v <-> exists u, x = Ok u /\ v = f u.
Proof. intros A B f [a|e] v; cbn; split; [intros [= <-]; eauto|intros (u & [= <-] & ->); reflexivity|discriminate|intros (u & D & _); discriminate]. Qed.
Lemma said_stands : forall k q own h v, said k q own h v -> stands h (RPtr q) v.
Proof.
  intros k q own h v S. pose proof (laid_kind _ _ _ _ (said_laid _ _ _ _ _ S)) as [K _]. apply (inst_stands _ _ _ _ K). destruct k; destruct S as (x & u & -> & P & V & _); apply rmap_ok; exists u; (split; [|reflexivity]).
  - apply (sel_reads _ _ _ _ u P). destruct x as [i (b & r)]. split; [reflexivity|exact (proj2 V)].
  - apply (ins_reads _ _ _ _ u P). destruct x as [i (b & r)]. destruct u. split; [reflexivity|exact (proj2 V)].
  - apply (upd_reads _ _ _ _ u P). exact V.
  - apply (del_reads _ _ _ _ u P). exact V.
Qed.
(** What the lists inside the query refer to. *)
Definition insides (k : qkind) (q : addr) (own : owner) (h : heap) (rs : list ref) : Prop :=
  match k with
  | QSelect => exists x, pd_at (seld q) own h x /\ rs = pd_refs (seld q) x
  | QInsert => exists x, pd_at (insd q) own h x /\ rs = pd_refs (insd q) x
  | QUpdate => exists x, pd_at (updd q) own h x /\ rs = pd_refs (updd q) x
  | QDelete => exists x, pd_at (deld q) own h x /\ rs = pd_refs (deld q) x
  end.
Lemma stands_said : forall k q own h v, laid k q own h -> stands h (RPtr q) v -> (forall rs, insides k q own h rs -> Forall (avoids h q) rs) -> said k q own h v.
Proof.
  intros k q own h v P S AV. pose proof (laid_kind _ _ _ _ P) as [K _]. apply (inst_stands _ _ _ _ K) in S. destruct k; destruct P as (x & P); apply rmap_ok in S; destruct S as (u & S & ->).
  - apply (sel_reads _ _ _ _ u P) in S. exists (off x), u. assert (P' : pd_at (seld q) own h (off x)) by (destruct x as [i (b & r)]; exact P). repeat (split; [assumption || reflexivity|]). apply AV. eexists. split; [exact P'|reflexivity].
  - apply (ins_reads _ _ _ _ u P) in S. exists (off x), u. assert (P' : pd_at (insd q) own h (off x)) by (destruct x as [i (b & r)]; exact P). repeat (split; [assumption || reflexivity|]). apply AV. eexists. split; [exact P'|reflexivity].
  - apply (upd_reads _ _ _ _ u P) in S. exists x, u. repeat (split; [assumption || reflexivity|]). apply AV. eexists. split; [exact P|reflexivity].
  - apply (del_reads _ _ _ _ u P) in S. exists x, u. repeat (split; [assumption || reflexivity|]). apply AV. eexists. split; [exact P|reflexivity].
Qed.
