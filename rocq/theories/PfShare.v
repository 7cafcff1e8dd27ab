(** Lemmas: values of objects, and the parsing of arguments given by reference. *)
From Coq Require Import Lia.
From Verif Require Import Base NumFmt Value Backend Eq Render ParseArgs Build Heap SpecHeap PfHeap PfHeapAlike PfHeapFrame PfHeapView HeapBuild SpecShare.
Open Scope nat_scope.

Lemma stands_view : forall h r v, stands h r v <-> view h r = Ok v.
Proof. intros h r v. split; [intros [n H]; eapply view_enough; eauto|intros H; eexists; exact H]. Qed.
Lemma stands_fun : forall h r v w, stands h r v -> stands h r w -> v = w.
Proof. intros h r v w A B. apply stands_view in A, B. congruence. Qed.
Lemma stands_atom : forall h v, immutable v = true -> stands h (av v) v.
Proof. intros h v H. exists 1. cbn. rewrite H. reflexivity. Qed.
Lemma mapM_forall2 : forall A B (f : A -> res B) l l', mapM f l = Ok l' <-> Forall2 (fun a b => f a = Ok b) l l'.
Proof.
  intros A B f l. induction l as [|a l IH]; intros l'; cbn [mapM].
  - split; [intros [= <-]; constructor|intros H; inversion H; reflexivity].
  - split.
    + intros H. destruct (f a) eqn:F; [|discriminate]. destruct (mapM f l) eqn:M; [|discriminate]. injection H as <-.
      constructor; [exact F|]. apply IH. reflexivity.
    + intros H. inversion H as [|x y l1 l2 E R]; subst. rewrite E. apply IH in R. rewrite R. reflexivity.
Qed.
Lemma views : forall h rs vs, Forall2 (stands h) rs vs <-> mapM (view h) rs = Ok vs.
Proof.
  intros h rs vs. rewrite mapM_forall2. split; intros H; induction H; constructor; auto; apply stands_view; assumption.
Qed.

Definition valid (h : heap) (r : ref) : Prop := match r with RAtom _ => True | RPtr p => p < List.length h end.
Lemma reach_valid : forall h r s, closed h -> reach h r s -> valid h r -> valid h s.
Proof.
  intros h r s C H. induction H as [r|p r s Hr H IH]; intros V; [exact V|]. apply IH. destruct r as [a|x]; [exact Logic.I|]. eapply C; eauto.
Qed.
Lemma decode_frame : forall h h' r, closed h -> valid h r ->
  (forall p, reach h r (RPtr p) -> get h' p = get h p) -> forall n, decode h' n r = decode h n r.
Proof.
  intros h h' r C V G n.
  assert (U : untouched [r] h h').
  { apply frame_untouched with (Q := fun p => reach h r (RPtr p)).
    - split.
      + intros p R. exact (reach_valid _ _ _ C R V).
      + intros p [a|x] R Rx; [exact Logic.I|]. simpl. eapply reach_trans; [exact R|]. eapply reach_step; [exact Rx|apply reach_refl].
    - intros x [<-|[]]. destruct r as [a|p]; [exact Logic.I|apply reach_refl].
    - exact G. }
  destruct U as [_ U]. apply U. destruct r as [a|p]; [left; eexists; reflexivity|right]. exists (RPtr p). split; [left; reflexivity|apply reach_refl].
Qed.
Lemma stands_frame : forall h h' r v, closed h -> valid h r ->
  (forall p, reach h r (RPtr p) -> get h' p = get h p) -> stands h r v -> stands h' r v.
Proof. intros h h' r v C V G [n H]. exists n. rewrite decode_frame with (h := h); auto. Qed.
Lemma stands_valid : forall h r v, stands h r v -> valid h r.
Proof. intros h [a|p] v [n H]; [exact Logic.I|]. eapply decode_valid; eauto. Qed.

Lemma inst_sql : forall h D c r v, d_inst h D c r = Ok v -> is_sql v = true.
Proof.
  intros h D c r v H.
  destruct c; cbn [d_inst] in H; unfold d_union, d_condition, d_coc, d_convert, bad in H; try discriminate;
  repeat match type of H with
         | (bind ?x _) = Ok _ => destruct x eqn:?; cbn [bind] in H; try discriminate
         | rmap _ ?x = Ok _ => destruct x eqn:?; cbn [rmap] in H; try discriminate
         | (if ?b then _ else _) = Ok _ => destruct b; try discriminate
         | (match ?x with _ => _ end) = Ok _ => destruct x; try discriminate
         end; injection H as <-; reflexivity.
Qed.
Lemma forall2_decode : forall h n rs vs, mapM (decode h n) rs = Ok vs -> Forall2 (stands h) rs vs.
Proof. intros h n rs vs H. apply mapM_forall2 in H. induction H; constructor; auto. exists n. assumption. Qed.
Lemma forall2_pairs : forall h n rs vs, mapM (d_pair (decode h n)) rs = Ok vs ->
  Forall2 (fun a b => stands h (fst a) (fst b) /\ stands h (snd a) (snd b)) rs vs.
Proof.
  intros h n rs vs H. apply mapM_forall2 in H. induction H as [|[a b] [x y] l l' E _ IH]; constructor; auto.
  unfold d_pair in E. cbn [fst snd] in *. destruct (decode h n a) eqn:A; [|discriminate]. cbn [bind] in E.
  destruct (decode h n b) eqn:B; [|discriminate]. injection E as <- <-. split; exists n; assumption.
Qed.
(** The elements of a list or tuple, the items of a dictionary. *)
Definition seq_view (h : heap) (r : ref) (v : val) : Prop :=
  match v with
  | VSeq KList l | VSeq KTuple l => exists rs, seq_at h r = Some rs /\ Forall2 (stands h) rs l
  | _ => seq_at h r = None
  end.
Definition dict_view (h : heap) (r : ref) (v : val) : Prop :=
  match v with
  | VDict l => exists rs, dict_at h r = Some rs /\ Forall2 (fun a b => stands h (fst a) (fst b) /\ stands h (snd a) (snd b)) rs l
  | _ => dict_at h r = None
  end.
Lemma atom_views : forall h a v, d_atom (RAtom a) = Ok v -> seq_view h (RAtom a) v /\ dict_view h (RAtom a) v.
Proof.
  intros h [w|s|s] v H; cbn [d_atom] in H; try discriminate. destruct (immutable w) eqn:I; [|discriminate]. injection H as <-.
  destruct w; try discriminate; try (split; reflexivity). destruct k; try discriminate. split; reflexivity.
Qed.
Lemma stands_views : forall h r v, stands h r v -> seq_view h r v /\ dict_view h r v.
Proof.
  intros h r v [[|n] H]; [discriminate|]. cbn [decode] in H.
  destruct r as [a|p]; [apply atom_views; exact H|].
  unfold d_body, obj_at in H. destruct (get h p) as [[k l]|] eqn:G; [|discriminate]. cbn [bind o_kind o_refs] in H.
  unfold seq_view, dict_view, seq_at, dict_at. rewrite G.
  destruct k; cbn [rmap] in H; try discriminate.
  1-6: destruct (mapM _ _) as [vs|e] eqn:M in H; cbn [rmap] in H; [|discriminate]; injection H as <-;
       first [apply forall2_decode in M | apply forall2_pairs in M].
  1-6: cbn beta iota; split; try reflexivity; (eexists; split; [reflexivity|exact M]).
  pose proof (inst_sql _ _ _ _ _ H) as S. destruct v; try discriminate S; split; reflexivity.
Qed.
Lemma stands_seq : forall h r v, stands h r v -> seq_view h r v.
Proof. intros. apply stands_views. assumption. Qed.
Lemma stands_dict : forall h r v, stands h r v -> dict_view h r v.
Proof. intros. apply stands_views. assumption. Qed.
Lemma seq_some : forall h r v rs, stands h r v -> seq_at h r = Some rs ->
  (exists l, (v = VSeq KList l \/ v = VSeq KTuple l) /\ Forall2 (stands h) rs l).
Proof.
  intros h r v rs H E. apply stands_seq in H. unfold seq_view in H.
  destruct v; try congruence. destruct k; try congruence; destruct H as (rs' & E' & F); exists l; split; auto; congruence.
Qed.

(** ** Parsing *)
Definition pair_stands (h : heap) (a : ref * ref) (b : val * val) : Prop := stands h (fst a) (fst b) /\ stands h (snd a) (snd b).
(** Both succeed with related results, or both raise the same exception. *)
Definition same_res {A B} (R : A -> B -> Prop) (x : res A) (y : res B) : Prop :=
  match x, y with Ok a, Ok b => R a b | Err e, Err e' => e = e' | _, _ => False end.
Lemma same_bind : forall A B A' B' (R : A -> B -> Prop) (T : A' -> B' -> Prop) x y f g,
  same_res R x y -> (forall a b, R a b -> same_res T (f a) (g b)) -> same_res T (bind x f) (bind y g).
Proof. intros A B A' B' R T [a|e] [b|e'] f g H K; cbn in *; try contradiction; auto. Qed.
Lemma same_mapM : forall A B A' B' (R : A -> B -> Prop) (T : A' -> B' -> Prop) f g l l',
  Forall2 R l l' -> (forall a b, R a b -> same_res T (f a) (g b)) -> same_res (Forall2 T) (mapM f l) (mapM g l').
Proof.
  intros A B A' B' R T f g l l' H K. induction H as [|a b l l' Hab _ IH]; cbn [mapM]; [constructor|].
  specialize (K _ _ Hab). destruct (f a), (g b); cbn in K; try contradiction; [|exact K].
  destruct (mapM f l), (mapM g l'); cbn in IH |- *; try contradiction; auto.
Qed.
Lemma forall2_len : forall A B (R : A -> B -> Prop) l l', Forall2 R l l' -> List.length l = List.length l'.
Proof. intros A B R l l' H. induction H; cbn; congruence. Qed.
Lemma forall2_repeat : forall A B (R : A -> B -> Prop) a b n, R a b -> Forall2 R (repeat a n) (repeat b n).
Proof. intros A B R a b n H. induction n; cbn; constructor; auto. Qed.
Lemma batch_stands : forall h o rs vs, Forall2 (stands h) rs vs ->
  same_res (Forall2 (stands h)) (r_create_batch o rs) (create_batch o vs).
Proof.
  intros h o rs vs H. unfold r_create_batch, create_batch. rewrite (forall2_len _ _ _ _ _ H).
  destruct (Nat.ltb _ _); [reflexivity|]. cbn. apply Forall2_app; [exact H|]. apply forall2_repeat. apply stands_atom. reflexivity.
Qed.
Lemma item_stands : forall h o r v, stands h r v ->
  same_res (Forall2 (stands h)) (r_parse_list_item h o r) (parse_list_item o v).
Proof.
  intros h o r v H. unfold r_parse_list_item, parse_list_item.
  assert (Z : seq_at h r = None -> same_res (Forall2 (stands h)) (match seq_at h r with Some l => r_create_batch o l
    | None => if Nat.eqb (p_min o) 1 then r_create_batch o [r] else Err EInvalidArgument end)
    (if Nat.eqb (p_min o) 1 then create_batch o [v] else Err EInvalidArgument)).
  { intros ->. destruct (Nat.eqb _ _); [|reflexivity]. apply batch_stands. constructor; [exact H|constructor]. }
  pose proof (stands_seq _ _ _ H) as S. unfold seq_view in S.
  destruct v; try (apply Z; exact S). destruct k; try (apply Z; exact S);
  destruct S as (rs & -> & F); apply batch_stands; exact F.
Qed.
Lemma pairs_stands : forall h o rs vs, Forall2 (pair_stands h) rs vs ->
  same_res (Forall2 (Forall2 (stands h))) (r_parse_items o rs) (parse_items o vs).
Proof.
  intros h o rs vs H. unfold r_parse_items, parse_items. apply same_mapM with (R := pair_stands h); [exact H|].
  intros a b [A B]. apply batch_stands. constructor; [exact A|]. constructor; [exact B|constructor].
Qed.
(** Sorting by keys does not look at the rest. *)
Lemma osort_rel : forall A B (R : A -> B -> Prop) (lt : A -> A -> bool) (lt' : B -> B -> bool),
  (forall a b x y, R a x -> R b y -> lt a b = lt' x y) ->
  forall l l', Forall2 R l l' -> Forall2 R (osort lt l) (osort lt' l').
Proof.
  intros A B R lt lt' E.
  assert (I : forall a x, R a x -> forall l l', Forall2 R l l' -> Forall2 R (oinsert lt a l) (oinsert lt' x l')).
  { intros a x Ha l l' H. induction H as [|b y l l' Hb H IH]; cbn [oinsert]; [constructor; auto|].
    rewrite (E _ _ _ _ Hb Ha). destruct (lt' y x); repeat (constructor; auto). }
  intros l l' H. induction H; cbn [osort]; [constructor|]. apply I; assumption.
Qed.
Lemma sort_kwds_stands : forall h k k', Forall2 (kw_stands h) k k' -> Forall2 (pair_stands h) (r_sort_kwds k) (sort_kwds k').
Proof.
  intros h k k' H. unfold r_sort_kwds, sort_kwds.
  assert (F : Forall2 (kw_stands h) (osort rkw_lt k) (osort kw_lt k')).
  { apply osort_rel; [|exact H]. intros [a ra] [b rb] [x vx] [y vy] [Ea _] [Eb _]. cbn [fst snd] in *. subst. reflexivity. }
  induction F as [|[a r] [b v] l l' [E S] F IH]; cbn [map]; constructor; auto. cbn [fst snd] in *. subst. split; [|exact S].
  cbn [fst]. apply stands_atom. reflexivity.
Qed.
Lemma sort_items_stands : forall W h rs vs, Forall2 (pair_stands h) rs vs ->
  same_res (Forall2 (pair_stands h)) (r_sort_items W h rs) (sort_items W vs).
Proof.
  intros W h rs vs H.
  assert (K : same_res eq (mapM (fun p => do v <- view h (fst p); dict_key W v) rs) (mapM (fun p => dict_key W (fst p)) vs)).
  { assert (X : same_res (Forall2 eq) (mapM (fun p => do v <- view h (fst p); dict_key W v) rs) (mapM (fun p => dict_key W (fst p)) vs)).
    { apply same_mapM with (R := pair_stands h); [exact H|]. intros [a b] [x y] [A _]. cbn [fst] in *.
      apply stands_view in A. rewrite A. cbn [bind]. destruct (dict_key W x); reflexivity. }
    destruct (mapM _ rs), (mapM _ vs); cbn in X |- *; try contradiction; auto.
    clear - X. induction X; congruence. }
  inversion H as [|a b l l' Hab H' E1 E2]; subst; [constructor|].
  inversion H' as [|c d l1 l1' Hcd H'' E1 E2]; subst; [constructor; auto|].
  unfold r_sort_items, sort_items. set (RS := a :: c :: l1) in *. set (VS := b :: d :: l1') in *. clearbody RS VS.
  destruct (mapM _ RS) as [ks|e], (mapM _ VS) as [ks'|e']; cbn in K; try contradiction; [|exact K]. subst ks'. cbn [bind].
  destruct (_ || _); [reflexivity|]. destruct (_ || _); [|reflexivity]. cbn.
  assert (F : Forall2 (fun x y => fst x = fst y /\ pair_stands h (snd x) (snd y)) (osort rk_lt (combine ks RS)) (osort dk_lt (combine ks VS))).
  { apply osort_rel.
    - intros [k1 x1] [k2 x2] [k3 x3] [k4 x4] [E1 _] [E2 _]. cbn [fst snd] in *. subst. reflexivity.
    - clear - H. revert ks. induction H as [|x y l l' P H IH]; intros [|k ks]; cbn [combine]; constructor; auto. }
  clear - F. induction F as [|x y l l' [_ P] F IH]; cbn [map]; constructor; auto.
Qed.
Lemma parse_stands : forall W h o args vs k k', Forall2 (stands h) args vs -> Forall2 (kw_stands h) k k' ->
  same_res (Forall2 (Forall2 (stands h))) (r_parse_args W h o args k) (parse_args W o vs k').
Proof.
  intros W h o args vs k k' H HK. unfold r_parse_args, parse_args. rewrite (forall2_len _ _ _ _ _ H).
  apply same_bind with (R := Forall2 (Forall2 (stands h))).
  - inversion H as [|a v l l' Ha H' E1 E2]; subst; [constructor|].
    assert (LT : is_some (seq_at h a) = is_list_or_tuple v).
    { pose proof (stands_seq _ _ _ Ha) as S. unfold seq_view in S.
      destruct v; try (rewrite S; reflexivity). destruct k0; try (rewrite S; reflexivity); destruct S as (rs & -> & _); reflexivity. }
    rewrite LT. destruct (_ && _) eqn:C.
    + apply same_bind with (R := Forall2 (stands h)); [apply batch_stands; exact H|]. intros x y X. constructor; [exact X|constructor].
    + assert (N : same_res (Forall2 (Forall2 (stands h))) (mapM (r_parse_list_item h o) (a :: l)) (parse_list o (v :: l'))).
      { unfold parse_list. apply same_mapM with (R := stands h); [exact H|]. intros; apply item_stands; assumption. }
      pose proof (stands_seq _ _ _ Ha) as S. pose proof (stands_dict _ _ _ Ha) as T. unfold seq_view, dict_view in S, T.
      assert (Z : seq_at h a = None -> dict_at h a = None ->
        same_res (Forall2 (Forall2 (stands h))) (match seq_at h a, dict_at h a, l with
             | Some x, _, [] => if p_list o then mapM (r_parse_list_item h o) x else mapM (r_parse_list_item h o) (a :: l)
             | _, Some _, [] => Ok []
             | _, _, _ => mapM (r_parse_list_item h o) (a :: l)
             end) (parse_list o (v :: l'))).
      { intros -> ->. exact N. }
      assert (Y : forall rs, seq_at h a = Some rs -> forall x, Forall2 (stands h) rs x ->
        same_res (Forall2 (Forall2 (stands h))) (match seq_at h a, dict_at h a, l with
             | Some x, _, [] => if p_list o then mapM (r_parse_list_item h o) x else mapM (r_parse_list_item h o) (a :: l)
             | _, Some _, [] => Ok []
             | _, _, _ => mapM (r_parse_list_item h o) (a :: l)
             end) (match l' with [] => if p_list o then parse_list o x else parse_list o (v :: l') | _ => parse_list o (v :: l') end)).
      { intros rs Es x F. rewrite Es. inversion H' as [|? ? ? ? ? ? E1 E2]; subst.
        - destruct (p_list o); [|destruct (dict_at h a); exact N].
          assert (M : same_res (Forall2 (Forall2 (stands h))) (mapM (r_parse_list_item h o) rs) (parse_list o x));
            [|destruct (dict_at h a); exact M]. unfold parse_list. apply same_mapM with (R := stands h); [exact F|]. intros; apply item_stands; assumption.
        - destruct (dict_at h a); exact N. }
      destruct v; try (apply Z; assumption).
      * destruct k0; try (apply Z; assumption); destruct S as (rs & Es & F); specialize (Y rs Es _ F); destruct l'; exact Y.
      * destruct T as (rs & Ed & F). rewrite S, Ed. inversion H' as [|? ? ? ? ? ? E1 E2]; subst; [constructor|exact N].
  - intros first first' F1.
    apply same_bind with (R := Forall2 (Forall2 (stands h))); [|intros second second' F2; cbn; apply Forall2_app; assumption].
    assert (Kw : forall d d', d = None -> (forall x, d' <> [VDict x]) -> same_res (Forall2 (Forall2 (stands h)))
      (match d with Some items => if p_dict o then do s <- r_sort_items W h items; r_parse_items o s else Err EInvalidArgument
       | None => match k with [] => Ok [] | _ => if p_dict o then r_parse_items o (r_sort_kwds k) else Err EInvalidArgument end end)
      (match d' with [VDict items] => if p_dict o then do s <- sort_items W items; parse_items o s else Err EInvalidArgument
       | _ => match k' with [] => Ok [] | _ => if p_dict o then parse_items o (sort_kwds k') else Err EInvalidArgument end end)).
    { intros d d' -> ND.
      assert (E : match d' with [VDict items] => if p_dict o then do s <- sort_items W items; parse_items o s else Err EInvalidArgument
        | _ => match k' with [] => Ok [] | _ => if p_dict o then parse_items o (sort_kwds k') else Err EInvalidArgument end end
        = match k' with [] => Ok [] | _ => if p_dict o then parse_items o (sort_kwds k') else Err EInvalidArgument end).
      { destruct d' as [|[] []]; try reflexivity. exfalso. eapply ND. reflexivity. }
      rewrite E. inversion HK as [|? ? ? ? ? ? E1 E2]; subst; [constructor|]. destruct (p_dict o); [|reflexivity].
      apply pairs_stands, sort_kwds_stands. exact HK. }
    assert (R1 : forall A (x : option (list (ref * ref))) (f : list (ref * ref) -> A) (y z : A),
      match x, k with Some i, _ => f i | None, [] => y | None, _ => z end = match x with Some i => f i | None => match k with [] => y | _ => z end end).
    { intros. destruct x; [reflexivity|]. destruct k; reflexivity. }
    try rewrite R1. clear R1.
    assert (R2 : match vs, k' with
      | [VDict items], _ => if p_dict o then do s <- sort_items W items; parse_items o s else Err EInvalidArgument
      | _, [] => Ok []
      | _, _ => if p_dict o then parse_items o (sort_kwds k') else Err EInvalidArgument
      end = match vs with [VDict items] => if p_dict o then do s <- sort_items W items; parse_items o s else Err EInvalidArgument
      | _ => match k' with [] => Ok [] | _ => if p_dict o then parse_items o (sort_kwds k') else Err EInvalidArgument end end).
    { destruct vs as [|[] []]; reflexivity. }
    try rewrite R2. clear R2.
    inversion H as [|a v l l' Ha H' E1 E2]; subst; [apply (Kw None []); [reflexivity|discriminate]|].
    inversion H' as [|b w l1 l1' Hb H'' E1 E2]; subst; [|refine (_ : same_res _ _ _); apply (Kw None (v :: w :: l1')); [reflexivity|discriminate]].
    pose proof (stands_dict _ _ _ Ha) as T. unfold dict_view in T.
    destruct v; try (match type of Ha with stands _ _ ?v => apply (Kw (dict_at h a) [v]) end; [exact T|discriminate]).
    destruct T as (rs & -> & F). destruct (p_dict o); [|reflexivity].
    apply same_bind with (R := Forall2 (pair_stands h)); [apply sort_items_stands; exact F|]. intros; apply pairs_stands; assumption.
Qed.
