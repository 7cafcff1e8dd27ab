(** Lemmas: adding to the parts of a query. *)
From Coq Require Import Lia.
From Verif Require Import Base NumFmt Value Backend Eq Render ParseArgs Build Heap SpecHeap PfHeap PfHeapAlike PfHeapFrame PfHeapView HeapBuild SpecShare PfShare PfOwn.
Open Scope nat_scope.

Definition item (r : ref) : label * ref := (LItem, r).
Lemma items_item : forall l, items_of (map item l) = l.
Proof. induction l; cbn; congruence. Qed.
(** A QueryParts object, its list, and the items. *)
Definition parts_at (h : heap) (c : cls) (sep : string) (more : list (label * ref)) (p l : addr) (items : list ref) : Prop :=
  get h p = Some (MkObj (OInst c) ((LAttr "_parts", RPtr l) :: more)) /\
  get h l = Some (MkObj (OInst CListOfQueryParts) ((LAttr "_separator", astr sep) :: map item items)).
Lemma parts_at_ne : forall h c sep more p l items, parts_at h c sep more p l items -> p <> l.
Proof. intros h c sep more p l items [A B] ->. rewrite A in B. discriminate. Qed.
Lemma parts_at_of : forall h c sep more p l items, parts_at h c sep more p l items -> parts_of h (RPtr p) = Ok items.
Proof.
  intros h c sep more p l items [A B]. unfold parts_of, attr, refs_at, obj_at. rewrite A. cbn. rewrite B.
  cbn. rewrite items_item. reflexivity.
Qed.
Lemma parts_at_parts : forall h c sep more p l items, parts_at h c sep more p l items -> parts h c (RPtr p) = Ok items.
Proof.
  intros h c sep more p l items [A B]. unfold parts, attr, refs_at, obj_at. rewrite A. cbn [bind o_kind].
  destruct (kind_eqb (OInst c) (OInst c)) as [_|N]; [|contradiction N; reflexivity]. cbn. rewrite B.
  cbn. rewrite items_item. reflexivity.
Qed.
Lemma parts_at_frame : forall h h' c sep more p l items, parts_at h c sep more p l items ->
  get h' p = get h p -> get h' l = get h l -> parts_at h' c sep more p l items.
Proof. intros h h' c sep more p l items [A B] E F. split; congruence. Qed.

(** append_part *)
Lemma append_part_at : forall (G : addr -> Prop) own h c sep more p l items x, inv own h -> parts_at h c sep more p l items ->
  Forall (okr own h) items -> okr own h x ->
  exists h', append_part (RPtr p) x h = (h', Ok tt) /\ after G (eq l) own h own h' /\ parts_at h' c sep more p l (items ++ [x]).
Proof.
  intros G own h c sep more p l items x J P OI OX. pose proof (parts_at_ne _ _ _ _ _ _ _ P) as NE. destruct P as [A B].
  unfold append_part, hbind, look, attr, obj_at. rewrite A. cbn. rewrite B.
  eexists. split; [reflexivity|]. split.
  - eapply after_write; [exact J|exact B|right; reflexivity|].
    intros a r [E|I].
    + injection E as <- <-. left. exact Logic.I.
    + left. apply in_app_or in I. destruct I as [I|[E|[]]]; [|injection E as <- <-; exact OX].
      apply in_map_iff in I. destruct I as (y & E & I). injection E as <- <-. rewrite Forall_forall in OI. apply OI. exact I.
  - split.
    + rewrite get_put_other by exact NE. exact A.
    + rewrite get_put_same by (eapply get_lt; eauto). rewrite map_app. reflexivity.
Qed.
Lemma anyM_see : forall A (R : ref -> res A) (eq : A -> A -> res bool) y items xs, Forall2 (fun r x => R r = Ok x) items xs ->
  anyM (fun r => do v <- R r; eq v y) items = anyM (fun v => eq v y) xs.
Proof.
  intros A R eq y items xs H. induction H as [|r x items xs E H IH]; [reflexivity|]. cbn [anyM]. rewrite E. cbn [bind].
  destruct (eq x y) as [[|]|]; auto.
Qed.
Lemma keeps_after : forall G C own h own' h', after G C own h own' h' -> keeps own h own' h'.
Proof. intros G C own h own' h' A. apply A. Qed.
Lemma inv_after : forall G C own h own' h', after G C own h own' h' -> inv own' h'.
Proof. intros G C own h own' h' A. apply A. Qed.
Definition nothing : addr -> Prop := fun _ => False.
Definition gdir (G : addr -> Prop) (h : heap) (r : ref) : Prop := forall p, r = RPtr p -> kind_of h p = Some OGen -> G p.
Lemma kind_back : forall own h own' h' p k, keeps own h own' h' -> p < List.length h -> kind_of h' p = Some k -> kind_of h p = Some k.
Proof.
  intros own h own' h' p k (_ & _ & K) L E. destruct (get_some h p L) as (k0 & l0 & G).
  assert (X : kind_of h p = Some k0) by (unfold kind_of; rewrite G; reflexivity). pose proof (K _ _ X). congruence.
Qed.
Lemma gdir_keeps : forall G own h own' h' r, keeps own h own' h' -> valid h r -> gdir G h r -> gdir G h' r.
Proof. intros G own h own' h' r K V D p -> E. apply (D p eq_refl). eapply kind_back; eauto. Qed.

Section Loop.
  Context {A : Type} (see : heap -> ref -> res A) (eqA : A -> A -> res bool) (mk : list ref -> hm addr) (mkv : list val -> res A) (Q : list ref -> Prop).
  Hypothesis see_frame : forall h h' r x, closed h -> valid h r -> (forall p, reach h r (RPtr p) -> get h' p = get h p) ->
    see h r = Ok x -> see h' r = Ok x.
  Hypothesis mk_spec : forall (G : addr -> Prop) own h it h1 r, Q it -> inv own h -> Forall (okr own h) it -> Forall (gdir G h) it ->
    mk it h = (h1, r) -> after G nothing own h own h1 /\ (forall p, r = Ok p -> okr own h1 (RPtr p)).
  Hypothesis mk_val : forall own h it vit h1 r, Q it -> inv own h -> Forall (okr own h) it -> Forall (gdir nothing h) it ->
    mk it h = (h1, r) -> Forall2 (stands h) it vit ->
    same_res (fun p x => see h1 (RPtr p) = Ok x /\
                forall C : addr -> Prop, Forall (calm nothing C h) it -> (forall y, List.length h <= y -> ~ C y) -> calm nothing C h1 (RPtr p))
      r (mkv vit).

  (** One turn. *)
  Lemma turn_spec : forall (G : addr -> Prop) own h c sep more p l items it h' o,
    Q it -> inv own h -> parts_at h c sep more p l items -> Forall (okr own h) items -> Forall (okr own h) it -> Forall (gdir G h) it ->
    ~ G p -> ~ G l ->
    (doh x <- mk it; append_unique_part see eqA (RPtr p) (RPtr x)) h = (h', o) ->
    exists add, after G (eq l) own h own h' /\ parts_at h' c sep more p l (items ++ add) /\ Forall (okr own h') (items ++ add) /\
    ((forall x, ~ G x) -> forall (C : addr -> Prop) vit xs, C l -> (forall y, List.length h <= y -> ~ C y) -> Forall2 (stands h) it vit -> Forall2 (fun r x => see h r = Ok x) items xs ->
       Forall (calm nothing C h) it -> Forall (calm nothing C h) items ->
       Forall2 (fun r x => see h' r = Ok x) (items ++ add) (fst (commit xs (do x <- mkv vit; append_unique eqA xs x))) /\
       snd (commit xs (do x <- mkv vit; append_unique eqA xs x)) = o /\
       Forall (calm nothing C h') (items ++ add)).
  Proof.
    intros G own h c sep more p l items it h' o QI J P OI OT GT NP NL R.
    unfold hbind in R at 1. destruct (mk it h) as [h1 [x|e]] eqn:M.
    2: { injection R as <- <-. destruct (mk_spec _ _ _ _ _ _ QI J OT GT M) as [AF _]. exists []. rewrite app_nil_r.
         split; [eapply after_more; [| |exact AF]; [auto|intros y []]|].
         split; [|split].
         - destruct AF as (_ & _ & F). destruct P as [PA PB]. split.
           + destruct (F p (get_lt _ _ _ PA)) as [E|[E|[]]]; [congruence|contradiction].
           + destruct (F l (get_lt _ _ _ PB)) as [E|[E|[]]]; [congruence|contradiction].
         - eapply oks_keeps; [apply AF|exact OI].
         - intros NG C vit xs CCl CCf SV SX CT CI.
           assert (GT' : Forall (gdir nothing h) it). { eapply Forall_impl; [|exact GT]. intros r D y E K. eapply NG. eapply D; eauto. }
           pose proof (mk_val _ _ _ _ _ _ QI J OT GT' M SV) as V. destruct (mkv vit); cbn in V; [contradiction|]. subst. cbn.
           assert (AF' : after nothing C own h own h1).
           { eapply after_more; [| |exact AF]; [intros y Y; exact (NG y Y)|intros y []]. }
           split; [|split; [reflexivity|]].
           + clear - SX CI AF' J see_frame OI. induction SX as [|r x items xs E S IH]; constructor; inversion CI; inversion OI; subst; auto.
             eapply see_frame; [apply J|eapply okr_valid; eauto| |exact E]. eapply calm_frame; eauto; [apply J|eapply okr_valid; eauto].
           + clear - CI AF' J OI. induction CI; constructor; inversion OI; subst; auto. eapply calm_after; eauto; [apply J|eapply okr_valid; eauto]. }
    destruct (mk_spec _ _ _ _ _ _ QI J OT GT M) as [AF OX]. specialize (OX _ eq_refl).
    pose proof (inv_after _ _ _ _ _ _ AF) as J1. pose proof (keeps_after _ _ _ _ _ _ AF) as K1.
    assert (P1 : parts_at h1 c sep more p l items).
    { destruct AF as (_ & _ & F). destruct P as [PA PB]. split.
      + destruct (F p (get_lt _ _ _ PA)) as [E|[E|[]]]; [congruence|contradiction].
      + destruct (F l (get_lt _ _ _ PB)) as [E|[E|[]]]; [congruence|contradiction]. }
    pose proof (oks_keeps _ _ _ _ _ K1 OI) as OI1.
    assert (AFl : after G (eq l) own h own h1) by (eapply after_more; [| |exact AF]; [auto|intros y []]).
    destruct (append_part_at G own h1 c sep more p l items (RPtr x) J1 P1 OI1 OX) as (h2 & E2 & AF2 & P2).
    unfold append_unique_part in R. unfold hbind in R at 1. unfold look in R. rewrite (parts_at_of _ _ _ _ _ _ _ P1) in R. cbn [bind] in R.
    (* the values *)
    assert (VAL : (forall x, ~ G x) -> forall (C : addr -> Prop) vit xs, C l -> (forall y, List.length h <= y -> ~ C y) -> Forall2 (stands h) it vit -> Forall2 (fun r x => see h r = Ok x) items xs ->
       Forall (calm nothing C h) it -> Forall (calm nothing C h) items ->
       exists y, mkv vit = Ok y /\ see h1 (RPtr x) = Ok y /\ calm nothing C h1 (RPtr x) /\
         Forall2 (fun r x => see h1 r = Ok x) items xs /\ Forall (calm nothing C h1) items).
    { intros NG C vit xs CCl CCf SV SX CT CI.
      assert (GT' : Forall (gdir nothing h) it). { eapply Forall_impl; [|exact GT]. intros r D y E K. eapply NG. eapply D; eauto. }
      pose proof (mk_val _ _ _ _ _ _ QI J OT GT' M SV) as V. destruct (mkv vit) as [y|]; cbn in V; [|contradiction]. destruct V as [SY CY].
      assert (AF' : after nothing C own h own h1).
      { eapply after_more; [| |exact AFl]; [intros z Z; exact (NG z Z)|intros z <-; exact CCl]. }
      exists y. split; [reflexivity|]. split; [exact SY|]. split; [|split].
      - apply CY; [exact CT|exact CCf].
      - clear - SX CI AF' J see_frame OI. induction SX as [|r x items xs E S IH]; constructor; inversion CI; inversion OI; subst; auto.
        eapply see_frame; [apply J|eapply okr_valid; eauto| |exact E]. eapply calm_frame; eauto; [apply J|eapply okr_valid; eauto].
      - clear - CI AF' J OI. induction CI; constructor; inversion OI; subst; auto. eapply calm_after; eauto; [apply J|eapply okr_valid; eauto]. }
    destruct (do y <- see h1 (RPtr x); anyM (fun r => do v <- see h1 r; eqA v y) items) as [[|]|e] eqn:FD.
    - (* found *)
      injection R as <- <-. exists []. rewrite app_nil_r. split; [exact AFl|]. split; [exact P1|]. split; [exact OI1|].
      intros NG C vit xs CCl CCf SV SX CT CI. destruct (VAL NG C vit xs CCl CCf SV SX CT CI) as (y & EY & SY & CY & SX1 & CI1).
      rewrite EY, SY in *. cbn [bind] in FD |- *. rewrite (anyM_see _ _ _ _ _ _ SX1) in FD. unfold append_unique. rewrite FD. cbn. auto.
    - (* added *)
      rewrite E2 in R. injection R as <- <-. exists [RPtr x]. split; [eapply after_trans; eauto|]. split; [exact P2|].
      split. { apply Forall_app. split; [eapply oks_keeps; [apply AF2|exact OI1]|]. constructor; [|constructor]. eapply okr_keeps; [apply AF2|exact OX]. }
      intros NG C vit xs CCl CCf SV SX CT CI. destruct (VAL NG C vit xs CCl CCf SV SX CT CI) as (y & EY & SY & CY & SX1 & CI1).
      rewrite EY, SY in *. cbn [bind] in FD |- *. rewrite (anyM_see _ _ _ _ _ _ SX1) in FD. unfold append_unique. rewrite FD. cbn.
      assert (AF' : after nothing C own h1 own h2).
      { eapply after_more; [| |exact AF2]; [intros z Z; exact (NG z Z)|intros z <-; exact CCl]. }
      assert (CC : Forall (calm nothing C h1) (items ++ [RPtr x])). { apply Forall_app. split; [exact CI1|]. constructor; [exact CY|constructor]. }
      assert (OO : Forall (okr own h1) (items ++ [RPtr x])). { apply Forall_app. split; [exact OI1|]. constructor; [exact OX|constructor]. }
      assert (SS : Forall2 (fun r x => see h1 r = Ok x) (items ++ [RPtr x]) (xs ++ [y])).
      { apply Forall2_app; [exact SX1|]. constructor; [exact SY|constructor]. }
      split; [|split; [reflexivity|]].
      + clear - SS CC AF' J1 see_frame OO. induction SS as [|r z L xs' E S IH]; constructor; inversion CC; inversion OO; subst; auto.
        eapply see_frame; [apply J1|eapply okr_valid; eauto| |exact E]. eapply calm_frame; eauto; [apply J1|eapply okr_valid; eauto].
      + clear - CC AF' J1 OO. induction CC; constructor; inversion OO; subst; auto. eapply calm_after; eauto; [apply J1|eapply okr_valid; eauto].
    - (* comparing raised *)
      injection R as <- <-. exists []. rewrite app_nil_r. split; [exact AFl|]. split; [exact P1|]. split; [exact OI1|].
      intros NG C vit xs CCl CCf SV SX CT CI. destruct (VAL NG C vit xs CCl CCf SV SX CT CI) as (y & EY & SY & CY & SX1 & CI1).
      rewrite EY, SY in *. cbn [bind] in FD |- *. rewrite (anyM_see _ _ _ _ _ _ SX1) in FD. unfold append_unique. rewrite FD. cbn. auto.
  Qed.

  Lemma loop_spec : forall (G : addr -> Prop) own c sep more p l (body : list ref -> hm unit) (f : list A -> list val -> list A * outcome),
    (forall it h, body it h = (doh x <- mk it; append_unique_part see eqA (RPtr p) (RPtr x)) h) ->
    (forall xs vit, f xs vit = commit xs (do x <- mkv vit; append_unique eqA xs x)) ->
    ~ G p -> ~ G l -> forall its h items h' o,
    Forall Q its -> inv own h -> parts_at h c sep more p l items -> Forall (okr own h) items ->
    Forall (Forall (okr own h)) its -> Forall (Forall (gdir G h)) its ->
    for_each body its h = (h', o) ->
    exists add, after G (eq l) own h own h' /\ parts_at h' c sep more p l (items ++ add) /\ Forall (okr own h') (items ++ add) /\
    ((forall x, ~ G x) -> forall (C : addr -> Prop) vits xs, C l -> (forall y, List.length h <= y -> ~ C y) -> Forall2 (Forall2 (stands h)) its vits -> Forall2 (fun r x => see h r = Ok x) items xs ->
       Forall (Forall (calm nothing C h)) its -> Forall (calm nothing C h) items ->
       Forall2 (fun r x => see h' r = Ok x) (items ++ add) (fst (foldE f xs vits)) /\ snd (foldE f xs vits) = o /\
       Forall (calm nothing C h') (items ++ add)).
  Proof.
    intros G own c sep more p l body f EB EF NP NL its. induction its as [|it its IH]; intros h items h' o QS J P OI OT GT R.
    - cbn in R. injection R as <- <-. exists []. rewrite app_nil_r. split; [apply after_refl; exact J|]. split; [exact P|]. split; [exact OI|].
      intros NG C vits xs CCl CCf SV SX CT CI. inversion SV; subst. cbn. auto.
    - inversion OT as [|? ? OT1 OT2]; inversion GT as [|? ? GT1 GT2]; inversion QS as [|? ? QS1 QS2]; subst.
      cbn [for_each] in R. unfold hbind in R at 1. destruct (body it h) as [h1 r1] eqn:B. rewrite EB in B.
      destruct (turn_spec G own h c sep more p l items it h1 r1 QS1 J P OI OT1 GT1 NP NL B) as (add1 & A1 & P1 & O1 & V1).
      pose proof (keeps_after _ _ _ _ _ _ A1) as K1.
      destruct r1 as [[]|e].
      + destruct (IH h1 (items ++ add1) h' o QS2 (inv_after _ _ _ _ _ _ A1) P1 O1) as (add2 & A2 & P2 & O2 & V2).
        * eapply Forall_impl; [|exact OT2]. intros; eapply oks_keeps; eauto.
        * clear - GT2 OT2 K1. induction GT2 as [|x its GT1 GT2 IH]; constructor; inversion OT2 as [|? ? OT1 OT3]; subst; auto.
          clear - GT1 OT1 K1. induction GT1; constructor; inversion OT1; subst; auto. eapply gdir_keeps; eauto. eapply okr_valid; eauto.
        * exact R.
        * exists (add1 ++ add2). rewrite app_assoc. split; [eapply after_trans; eauto|]. split; [exact P2|]. split; [exact O2|].
          intros NG C vits xs CCl CCf SV SX CT CI. inversion SV as [|? vit ? vits' SV1 SV2]; subst. inversion CT as [|? ? CT1 CT2]; subst.
          destruct (V1 NG C _ _ CCl CCf SV1 SX CT1 CI) as (SX1 & E1 & C1).
          cbn [foldE]. rewrite EF. destruct (commit xs _) as [xs1 o1]. cbn [fst snd] in *. subst o1.
          assert (A1' : after nothing C own h own h1).
          { eapply after_more; [| |exact A1]; [intros z Z; exact (NG z Z)|intros z <-; exact CCl]. }
          apply (V2 NG C vits' xs1); [exact CCl|intros y Y; apply CCf; destruct K1; lia| |exact SX1| |exact C1].
          -- clear - SV2 CT2 OT2 A1' J. induction SV2 as [|x y its vits H S IH]; constructor; inversion CT2; inversion OT2; subst; auto.
             match goal with H1 : Forall (calm _ _ _) x, H2 : Forall (okr _ _) x |- _ => clear - H H1 H2 A1' J; revert y H; induction x; intros y H; inversion H; inversion H1; inversion H2; subst; constructor; auto end.
             eapply calm_stands; eauto. apply J.
          -- clear - CT2 OT2 A1' J. induction CT2 as [|x its H S IH]; constructor; inversion OT2 as [|? ? O1 O2]; subst; auto.
             clear - H O1 A1' J. induction H; constructor; inversion O1; subst; auto. eapply calm_after; eauto; [apply J|eapply okr_valid; eauto].
      + injection R as <- <-. exists add1. split; [exact A1|]. split; [exact P1|]. split; [exact O1|].
        intros NG C vits xs CCl CCf SV SX CT CI. inversion SV as [|? vit ? vits' SV1 SV2]; subst. inversion CT as [|? ? CT1 CT2]; subst.
        destruct (V1 NG C _ _ CCl CCf SV1 SX CT1 CI) as (SX1 & E1 & C1).
        cbn [foldE]. rewrite EF. destruct (commit xs _) as [xs1 o1]. cbn [fst snd] in *. subst o1. auto.
  Qed.
End Loop.
