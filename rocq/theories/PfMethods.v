(** Lemmas: the methods that add conditions, columns and values. *)
From Coq Require Import Lia.
From Verif Require Import Base NumFmt Value Backend Eq Render ParseArgs Build Heap SpecHeap PfHeap PfHeapAlike PfHeapFrame PfHeapView HeapBuild SpecShare PfShare PfOwn PfParts PfNewItems.
Open Scope nat_scope.
Local Arguments view : simpl never.

(** ** Columns and values *)
Lemma new_value_spec : forall (G : addr -> Prop) own h c v h1 o, inv own h -> okr own h c -> okr own h v ->
  new_value c v h = (h1, o) -> after G nothing own h own h1 /\ (forall p, o = Ok p -> okr own h1 (RPtr p)).
Proof.
  intros G own h c v h1 o J OC OV R. unfold new_value in R.
  assert (Z : after G nothing own h own h) by (apply after_refl; exact J).
  unfold hbind at 1, look at 1 in R. destruct (view h c) as [vc|]; [|injection R as <- <-; split; [exact Z|discriminate]].
  unfold hbind at 1, check at 1 in R. destruct (check_type [TStr] vc); [|injection R as <- <-; split; [exact Z|discriminate]].
  unfold hbind at 1, look at 1 in R. destruct (view h v) as [vv|]; [|injection R as <- <-; split; [exact Z|discriminate]].
  unfold hbind at 1, check at 1 in R. destruct (check_type value_types vv); [|injection R as <- <-; split; [exact Z|discriminate]].
  unfold alloc in R. injection R as <- <-.
  destruct (after_alloc G nothing own h (OInst CValue) [(LAttr "_column_name", c); (LAttr "_value", v)] J) as [A4 O4].
  { intros a x [[= <- <-]|[[= <- <-]|[]]]; assumption. }
  split; [exact A4|]. intros p [= <-]. exact O4.
Qed.
Lemma good_pair : forall h k c a own lc la, closed h -> okr own h c -> okr own h a ->
  good_new h (h ++ [MkObj k [(lc, c); (la, a)]]) [c; a] (List.length h).
Proof.
  intros h k c a own lc la CL OC OA C FC NC. apply calm_new; [exact CL| |intros []|apply NC; lia].
  inversion FC as [|? ? F1 F]; inversion F as [|? ? F2 _]; subst.
  intros x z [[= <- <-]|[[= <- <-]|[]]]; split; try assumption; eapply okr_valid; eauto.
Qed.
Lemma new_value_val : forall own h c v vc vv h1 o, inv own h -> okr own h c -> okr own h v ->
  new_value c v h = (h1, o) -> stands h c vc -> stands h v vv ->
  same_res (fun p x => stands h1 (RPtr p) x /\ good_new h h1 [c; v] p) o (mk_value vc vv).
Proof.
  intros own h c v vc vv h1 o J OC OV R SC SV. unfold new_value in R. unfold mk_value.
  unfold hbind at 1, look at 1 in R. rewrite (view_cases _ _ _ SC) in R.
  unfold hbind at 1, check at 1 in R. destruct (check_type [TStr] vc); [|injection R as <- <-; reflexivity].
  unfold hbind at 1, look at 1 in R. rewrite (view_cases _ _ _ SV) in R.
  unfold hbind at 1, check at 1 in R. destruct (check_type value_types vv); [|injection R as <- <-; reflexivity].
  unfold alloc in R. injection R as <- <-. cbn. split.
  - eapply stands_value; [apply get_new| |]; (apply stands_app; [apply J|assumption]).
  - eapply good_pair; eauto. apply J.
Qed.
Lemma new_column_spec : forall (G : addr -> Prop) own h c v h1 o, inv own h -> okr own h c -> okr own h v ->
  new_column c v h = (h1, o) -> after G nothing own h own h1 /\ (forall p, o = Ok p -> okr own h1 (RPtr p)).
Proof.
  intros G own h c v h1 o J OC OV R. unfold new_column in R.
  assert (Z : after G nothing own h own h) by (apply after_refl; exact J).
  unfold hbind at 1, look at 1 in R. destruct (view h c) as [vc|]; [|injection R as <- <-; split; [exact Z|discriminate]].
  unfold hbind at 1, check at 1 in R. destruct (check_type [TStr; TInt] vc); [|injection R as <- <-; split; [exact Z|discriminate]].
  unfold hbind at 1, look at 1 in R. destruct (view h v) as [vv|]; [|injection R as <- <-; split; [exact Z|discriminate]].
  unfold hbind at 1, check at 1 in R. destruct (check_type [TStr; TNone] vv); [|injection R as <- <-; split; [exact Z|discriminate]].
  unfold alloc in R. injection R as <- <-.
  destruct (after_alloc G nothing own h (OInst CColumn) [(LAttr "_column_name", c); (LAttr "_alias", v)] J) as [A4 O4].
  { intros a x [[= <- <-]|[[= <- <-]|[]]]; assumption. }
  split; [exact A4|]. intros p [= <-]. exact O4.
Qed.
Definition col_obj (c a : ref) : obj := MkObj (OInst CColumn) [(LAttr "_column_name", c); (LAttr "_alias", a)].
Lemma column_at : forall h D p c a, get h p = Some (col_obj c a) -> d_column h D (RPtr p) = (do x <- D c; do y <- D a; Ok (x, y)).
Proof. intros h D p c a G. unfold d_column, refs_at, attr, obj_at. rewrite G. cbn. reflexivity. Qed.
Lemma new_column_val : forall own h c v vc vv h1 o, inv own h -> okr own h c -> okr own h v ->
  new_column c v h = (h1, o) -> stands h c vc -> stands h v vv ->
  same_res (fun p x => see_column h1 (RPtr p) = Ok x /\ good_new h h1 [c; v] p) o (mk_column vc vv).
Proof.
  intros own h c v vc vv h1 o J OC OV R SC SV. unfold new_column in R. unfold mk_column.
  unfold hbind at 1, look at 1 in R. rewrite (view_cases _ _ _ SC) in R.
  unfold hbind at 1, check at 1 in R. destruct (check_type [TStr; TInt] vc); [|injection R as <- <-; reflexivity].
  unfold hbind at 1, look at 1 in R. rewrite (view_cases _ _ _ SV) in R.
  unfold hbind at 1, check at 1 in R. destruct (check_type [TStr; TNone] vv); [|injection R as <- <-; reflexivity].
  unfold alloc in R. injection R as <- <-. cbn. split.
  - unfold see_column. rewrite column_at with (c := c) (a := v) by apply get_new.
    rewrite (view_cases _ _ vc), (view_cases _ _ vv); [reflexivity| |]; (apply stands_app; [apply J|assumption]).
  - eapply good_pair; eauto. apply J.
Qed.
Lemma view_frame : forall h h' r x, closed h -> valid h r -> (forall p, reach h r (RPtr p) -> get h' p = get h p) ->
  view h r = Ok x -> view h' r = Ok x.
Proof. intros h h' r x C V F H. apply stands_view. apply stands_view in H. eapply stands_frame; eauto. Qed.
Lemma attr_refers : forall h k p r, attr h k (RPtr p) = Ok r -> refers h p r.
Proof.
  intros h k p r H. unfold attr, obj_at in H. destruct (get h p) as [[kd l]|] eqn:G; [|discriminate]. cbn [bind o_refs] in H.
  assert (X : exists a, In (a, r) l).
  { clear G. induction l as [|[a x] l IH]; [discriminate|]. cbn [find_attr] in H.
    destruct a; try (destruct (IH H) as [b B]; exists b; right; exact B).
    destruct (String.eqb _ _); [injection H as <-; eexists; left; reflexivity|]. destruct (IH H) as [b B]; exists b; right; exact B. }
  destruct X as [a I]. exists kd, l, a. auto.
Qed.
Lemma column_frame : forall h h' r x, closed h -> valid h r -> (forall p, reach h r (RPtr p) -> get h' p = get h p) ->
  see_column h r = Ok x -> see_column h' r = Ok x.
Proof.
  intros h h' r x C V F H. destruct r as [a|p]; [discriminate|]. unfold see_column, d_column in *.
  assert (E : obj_at h' (RPtr p) = obj_at h (RPtr p)). { cbn. rewrite F by apply reach_refl. reflexivity. }
  unfold refs_at in *. rewrite E in *.
  assert (EA : forall k, attr h' k (RPtr p) = attr h k (RPtr p)). { intros k. unfold attr. rewrite E. reflexivity. }
  rewrite !EA. destruct (do o <- obj_at h (RPtr p); _) as [u|]; [|discriminate]. cbn [bind] in *.
  assert (Y : forall k y v, attr h k (RPtr p) = Ok y -> view h y = Ok v -> view h' y = Ok v).
  { intros k y v A S. apply attr_refers in A. eapply view_frame; [exact C| | |exact S].
    - destruct y as [a|b]; [exact Logic.I|]. eapply C; eauto.
    - intros b R. apply F. eapply reach_step; eauto. }
  destruct (attr h "_column_name" (RPtr p)) as [c|] eqn:A1; [|discriminate]. cbn [bind] in *.
  destruct (view h c) as [vc|] eqn:V1; [|discriminate]. cbn [bind] in *. rewrite (Y _ _ _ A1 V1).
  destruct (attr h "_alias" (RPtr p)) as [a|] eqn:A2; [|discriminate]. cbn [bind] in *.
  destruct (view h a) as [va|] eqn:V2; [|discriminate]. cbn [bind] in *. rewrite (Y _ _ _ A2 V2). exact H.
Qed.
Lemma nth2_all : forall (P : ref -> Prop) it, P r_none -> Forall P it -> P (fst (r_nth2 it)) /\ P (snd (r_nth2 it)).
Proof.
  intros P it N F. destruct it as [|a [|b [|c it]]]; cbn; auto. inversion F as [|? ? A F']; inversion F'; subst; auto.
Qed.
Lemma nth2_stands : forall h it vit, Forall2 (stands h) it vit ->
  stands h (fst (r_nth2 it)) (fst (nth2 vit)) /\ stands h (snd (r_nth2 it)) (snd (nth2 vit)).
Proof.
  intros h it vit F. assert (N : stands h r_none VNone) by (apply stands_atom; reflexivity).
  inversion F as [|a b ? ? A F1]; subst; [auto|]. inversion F1 as [|a' b' ? ? B F2]; subst; [auto|]. inversion F2; subst; cbn; auto.
Qed.
Lemma nth2_calm : forall C h it, Forall (calm nothing C h) it -> Forall (calm nothing C h) [fst (r_nth2 it); snd (r_nth2 it)].
Proof. intros C h it F. destruct (nth2_all (calm nothing C h) it (calm_atom _ _ _ _) F). auto. Qed.

(** ** Adding to a list of parts *)
Definition added {A} (see : heap -> ref -> res A) (G : addr -> Prop) own h c sep more p l items h' (o : res unit)
    (K : (addr -> Prop) -> list A -> list A * outcome -> Prop) : Prop :=
  exists add, after G (eq l) own h own h' /\ parts_at h' c sep more p l (items ++ add) /\ Forall (okr own h') (items ++ add) /\
    ((forall x, ~ G x) -> forall (C : addr -> Prop) xs y, C l -> (forall y, List.length h <= y -> ~ C y) ->
       K C xs y -> Forall2 (fun r x => see h r = Ok x) items xs -> Forall (calm nothing C h) items ->
       Forall2 (fun r x => see h' r = Ok x) (items ++ add) (fst y) /\ snd y = o /\ Forall (calm nothing C h') (items ++ add)).
Lemma added_same : forall A (see : heap -> ref -> res A) G own h c sep more p l items o (K : (addr -> Prop) -> list A -> list A * outcome -> Prop),
  inv own h -> parts_at h c sep more p l items -> Forall (okr own h) items ->
  ((forall x, ~ G x) -> forall C xs y, K C xs y -> Forall2 (fun r x => see h r = Ok x) items xs -> y = (xs, o)) ->
  added see G own h c sep more p l items h o K.
Proof.
  intros A see G own h c sep more p l items o K J P OI HK. exists []. rewrite app_nil_r. split; [apply after_refl; exact J|].
  split; [exact P|]. split; [exact OI|]. intros NG C xs y CCl CCf KK S CI. rewrite (HK NG C xs y KK S). auto.
Qed.
Lemma added_push : forall (G : addr -> Prop) own h c sep more p l items x h' o (K : (addr -> Prop) -> list val -> list val * outcome -> Prop),
  inv own h -> parts_at h c sep more p l items -> Forall (okr own h) items -> okr own h x ->
  append_part (RPtr p) x h = (h', o) ->
  ((forall x, ~ G x) -> forall C xs y, K C xs y -> calm nothing C h x /\ exists v, stands h x v /\ y = (xs ++ [v], Ok tt)) ->
  added view G own h c sep more p l items h' o K.
Proof.
  intros G own h c sep more p l items x h' o K J P OI OX R HK.
  destruct (append_part_at G own h c sep more p l items x J P OI OX) as (h2 & E2 & AF2 & P2).
  rewrite E2 in R. injection R as <- <-. exists [x]. split; [exact AF2|]. split; [exact P2|].
  assert (OO : Forall (okr own h) (items ++ [x])). { apply Forall_app. split; [exact OI|]. constructor; [exact OX|constructor]. }
  split; [eapply oks_keeps; [apply AF2|exact OO]|].
  intros NG C xs y CCl CCf KK S CI. destruct (HK NG C xs y KK) as (CX & v & SV & ->).
  assert (AF' : after nothing C own h own h2). { eapply after_more; [| |exact AF2]; [intros z Z; exact (NG z Z)|intros z <-; exact CCl]. }
  assert (CC : Forall (calm nothing C h) (items ++ [x])). { apply Forall_app. split; [exact CI|]. constructor; [exact CX|constructor]. }
  assert (SS : Forall2 (fun r x => view h r = Ok x) (items ++ [x]) (xs ++ [v])).
  { apply Forall2_app; [exact S|]. constructor; [apply stands_view; exact SV|constructor]. }
  cbn [fst snd]. split; [|split; [reflexivity|]].
  - clear - SS CC AF' J OO. induction SS as [|r z L xs' E S IH]; constructor; inversion CC; inversion OO; subst; auto.
    eapply view_frame; [apply J|eapply okr_valid; eauto| |exact E]. eapply calm_frame; eauto; [apply J|eapply okr_valid; eauto].
  - clear - CC AF' J OO. induction CC; constructor; inversion OO; subst; auto. eapply calm_after; eauto; [apply J|eapply okr_valid; eauto].
Qed.
Definition kcalm (C : addr -> Prop) (h : heap) (args : list ref) (kwds : rkwargs) : Prop :=
  Forall (calm nothing C h) args /\ Forall (fun x => calm nothing C h (snd x)) kwds.
Definition kokr (own : owner) (h : heap) (args : list ref) (kwds : rkwargs) : Prop :=
  Forall (okr own h) args /\ Forall (fun x => okr own h (snd x)) kwds.
Definition kgin (G : addr -> Prop) (h : heap) (args : list ref) (kwds : rkwargs) : Prop :=
  Forall (gin G h) args /\ Forall (fun x => gin G h (snd x)) kwds.
(** The loop over the parsed arguments. *)
Lemma added_loop : forall A (see : heap -> ref -> res A) eqA (mk : ref -> ref -> hm addr) (mkv : val -> val -> res A)
    (see_frame : forall h h' r x, closed h -> valid h r -> (forall p, reach h r (RPtr p) -> get h' p = get h p) ->
      see h r = Ok x -> see h' r = Ok x)
    (mk_spec : forall (G : addr -> Prop) own h a b h1 r, inv own h -> okr own h a -> okr own h b -> gdir G h b ->
      mk a b h = (h1, r) -> after G nothing own h own h1 /\ (forall p, r = Ok p -> okr own h1 (RPtr p)))
    (mk_val : forall own h a b va vb h1 r, inv own h -> okr own h a -> okr own h b -> gdir nothing h b ->
      mk a b h = (h1, r) -> stands h a va -> stands h b vb ->
      same_res (fun p x => see h1 (RPtr p) = Ok x /\ good_new h h1 [a; b] p) r (mkv va vb))
    W po (G : addr -> Prop) own c sep more p l h items args kwds h' o,
  ~ G p -> ~ G l -> inv own h -> parts_at h c sep more p l items -> Forall (okr own h) items ->
  kokr own h args kwds -> kgin G h args kwds ->
  (doh items <- look (fun h => r_parse_args W h po args kwds);
   for_each (fun it => let (a, b) := r_nth2 it in doh x <- mk a b; append_unique_part see eqA (RPtr p) (RPtr x)) items) h = (h', o) ->
  added see G own h c sep more p l items h' o (fun C xs y => exists vs vk, Forall2 (stands h) args vs /\ Forall2 (kw_stands h) kwds vk /\
    kcalm C h args kwds /\ y = match parse_args W po vs vk with
      | Err e => (xs, Err e)
      | Ok vits => foldE (fun s it => let (a, b) := nth2 it in commit s (do x <- mkv a b; append_unique eqA s x)) xs vits
      end).
Proof.
  intros A see eqA mk mkv SF MS MV W po G own c sep more p l h items args kwds h' o NP NL J P OI [OA OK] [GA GK] R.
  unfold hbind at 1, look at 1 in R.
  destruct (r_parse_args W h po args kwds) as [its|e] eqn:PA.
  - pose proof (el_parse _ _ (okr_elements _ _ J) _ _ _ _ _ OA OK PA) as OT.
    pose proof (el_parse _ _ (gin_elements G h) _ _ _ _ _ GA GK PA) as GT.
    assert (GD : Forall (Forall (gdir G h)) its).
    { eapply Forall_impl; [|exact GT]. intros a. apply Forall_impl. apply gin_gdir. }
    destruct (loop_spec see eqA (fun it => mk (fst (r_nth2 it)) (snd (r_nth2 it))) (fun it => mkv (fst (nth2 it)) (snd (nth2 it))) (fun _ => True) SF) with
      (G := G) (own := own) (c := c) (sep := sep) (more := more) (p := p) (l := l) (its := its) (h := h) (items := items) (h' := h') (o := o)
      (body := fun it => let (a, b) := r_nth2 it in doh x <- mk a b; append_unique_part see eqA (RPtr p) (RPtr x))
      (f := fun s it => let (a, b) := nth2 it in commit s (do x <- mkv a b; append_unique eqA s x))
      as (add & AF & P' & OI' & V); auto.
    + intros G0 own0 h0 it h1 r _ J0 O0 D0 M0.
      assert (N : gdir G0 h0 r_none) by (intros ?; discriminate). destruct (nth2_all (gdir G0 h0) it N D0) as [_ DB].
      destruct (nth2_all (okr own0 h0) it Logic.I O0) as [OA0 OB0]. exact (MS _ _ _ _ _ _ _ J0 OA0 OB0 DB M0).
    + intros own0 h0 it vit h1 r _ J0 O0 D0 M0 S0. destruct (nth2_all (okr own0 h0) it Logic.I O0) as [OA0 OB0].
      assert (N : gdir nothing h0 r_none) by (intros ?; discriminate). destruct (nth2_all (gdir nothing h0) it N D0) as [_ DB].
      destruct (nth2_stands _ _ _ S0) as [SA SB].
      pose proof (MV own0 h0 _ _ _ _ h1 r J0 OA0 OB0 DB M0 SA SB) as X.
      destruct r, (mkv _ _); cbn in *; try contradiction; auto. destruct X as [X1 X2]. split; [exact X1|].
      intros C FC NC. apply X2; [|exact NC]. apply nth2_calm. exact FC.
    + intros it h0. destruct (r_nth2 it). reflexivity.
    + intros xs vit. destruct (nth2 vit). reflexivity.
    + clear. induction its; constructor; auto.
    + exists add. split; [exact AF|]. split; [exact P'|]. split; [exact OI'|].
      intros NG C xs y CCl CCf (vs & vk & SV & SK & [CA CK] & ->) SX CI.
      pose proof (parse_stands W h po args vs kwds vk SV SK) as PS. rewrite PA in PS.
      destruct (parse_args W po vs vk) as [vits|]; cbn in PS; [|contradiction].
      apply V; auto. eapply el_parse; [apply calm_elements|exact CA|exact CK|exact PA].
  - injection R as <- <-. apply added_same; auto.
    intros NG C xs y (vs & vk & SV & SK & _ & ->) SX.
    pose proof (parse_stands W h po args vs kwds vk SV SK) as PS. rewrite PA in PS.
    destruct (parse_args W po vs vk) as [vits|]; cbn in PS; [contradiction|]. subst. reflexivity.
Qed.
Lemma added_more : forall A (see : heap -> ref -> res A) G own h c sep more p l items h' o (K K' : (addr -> Prop) -> list A -> list A * outcome -> Prop),
  added see G own h c sep more p l items h' o K ->
  ((forall x, ~ G x) -> forall C xs y, K' C xs y -> Forall2 (fun r x => see h r = Ok x) items xs -> K C xs y) ->
  added see G own h c sep more p l items h' o K'.
Proof.
  intros A see G own h c sep more p l items h' o K K' (add & AF & P & O & V) H. exists add. split; [exact AF|]. split; [exact P|]. split; [exact O|].
  intros NG C xs y CCl CCf KK S CI. apply (V NG C xs y); auto.
Qed.

Lemma h_columns_spec : forall W (G : addr -> Prop) own c sep more p l h items args kwds h' o,
  ~ G p -> ~ G l -> inv own h -> parts_at h c sep more p l items -> Forall (okr own h) items ->
  kokr own h args kwds -> kgin G h args kwds -> h_columns W (RPtr p) args kwds h = (h', o) ->
  added see_column G own h c sep more p l items h' o (fun C xs y => exists vs vk, Forall2 (stands h) args vs /\ Forall2 (kw_stands h) kwds vk /\
    kcalm C h args kwds /\ y = columns_add W xs vs vk).
Proof.
  intros W G own c sep more p l h items args kwds h' o NP NL J P OI KO KG R. unfold h_columns in R.
  eapply added_loop with (mk := new_column) (mkv := mk_column); eauto.
  - apply column_frame.
  - intros G0 own0 h0 a b h1 r J0 OA OB _ M. exact (new_column_spec G0 own0 h0 a b h1 r J0 OA OB M).
  - intros own0 h0 a b va vb h1 r J0 OA OB _ M SA SB. exact (new_column_val own0 h0 a b va vb h1 r J0 OA OB M SA SB).
Qed.
Lemma same_view : forall h1 h its o y, same_res (fun p x => stands h1 (RPtr p) x /\ good_new h h1 its p) o y ->
  same_res (fun p x => view h1 (RPtr p) = Ok x /\ good_new h h1 its p) o y.
Proof. intros h1 h its [p|e] [x|e'] H; cbn in *; auto. destruct H as [A B]. split; [apply stands_view; exact A|exact B]. Qed.
Lemma views_all : forall h args vs, Forall2 (stands h) args vs -> mapM (view h) args = Ok vs.
Proof. intros. apply views. assumption. Qed.
Lemma h_set_spec : forall W (G : addr -> Prop) own c sep more p l h items args kwds h' o,
  ~ G p -> ~ G l -> inv own h -> parts_at h c sep more p l items -> Forall (okr own h) items ->
  kokr own h args kwds -> kgin G h args kwds -> h_set W (RPtr p) args kwds h = (h', o) ->
  added view G own h c sep more p l items h' o (fun C xs y => exists vs vk, Forall2 (stands h) args vs /\ Forall2 (kw_stands h) kwds vk /\
    kcalm C h args kwds /\ y = values_set W xs vs vk).
Proof.
  intros W G own c sep more p l h items args kwds h' o NP NL J P OI KO KG R. unfold h_set in R.
  set (normal := doh items <- look (fun h => r_parse_args W h pair_opts args kwds);
    for_each (fun it => let (c, x) := r_nth2 it in
      doh p0 <- new_value c x; append_unique_part view (w_eq W) (RPtr p) (RPtr p0)) items) in R.
  assert (N : normal h = (h', o) -> added view G own h c sep more p l items h' o (fun C xs y => exists vs vk, Forall2 (stands h) args vs /\ Forall2 (kw_stands h) kwds vk /\
    kcalm C h args kwds /\ y = match parse_args W pair_opts vs vk with
    | Err e => (xs, Err e)
    | Ok items => foldE (fun s it => let (c, v) := nth2 it in commit s (do x <- mk_value c v; append_unique (w_eq W) s x)) xs items end)).
  { intros RN. eapply added_loop with (mk := new_value) (mkv := mk_value); eauto.
    - apply view_frame.
    - intros G0 own0 h0 a b h1 r J0 OA OB _ M. exact (new_value_spec G0 own0 h0 a b h1 r J0 OA OB M).
    - intros own0 h0 a b va vb h1 r J0 OA OB _ M SA SB. apply same_view. exact (new_value_val own0 h0 a b va vb h1 r J0 OA OB M SA SB). }
  unfold hbind at 1, look at 1 in R.
  destruct (mapM (view h) args) as [vs0|e] eqn:MV.
  2: { injection R as <- <-. apply added_same; auto. intros NG C xs y (vs & vk & SV & _) _. rewrite (views_all _ _ _ SV) in MV. discriminate. }
  assert (NN : (forall xs vk, Forall2 (kw_stands h) kwds vk -> values_set W xs vs0 vk = match parse_args W pair_opts vs0 vk with
    | Err e => (xs, Err e)
    | Ok items => foldE (fun s it => let (c, v) := nth2 it in commit s (do x <- mk_value c v; append_unique (w_eq W) s x)) xs items end) ->
    normal h = (h', o) -> added view G own h c sep more p l items h' o (fun C xs y => exists vs vk, Forall2 (stands h) args vs /\ Forall2 (kw_stands h) kwds vk /\
    kcalm C h args kwds /\ y = values_set W xs vs vk)).
  { intros EV RN. eapply added_more; [apply N; exact RN|]. intros NG C xs y (vs & vk & SV & SK & KC & ->) _.
    assert (vs = vs0) by (pose proof (views_all _ _ _ SV); congruence). subst vs. exists vs0, vk. rewrite EV by exact SK. auto. }
  destruct vs0 as [|v [|v2 vs0]].
  - apply NN; [intros xs vk _; reflexivity|exact R].
  - destruct kwds as [|kw kwds].
    + destruct (is_sql v) eqn:IS.
      * pose proof MV as MV'. apply views in MV'. inversion MV' as [|a ? args' ? Sa MV2]; subst. inversion MV2; subst.
        destruct KO as [OA _]. inversion OA; subst.
        eapply added_push; eauto. intros NG C xs y (vs & vk & SV & SK & [CA _] & ->). inversion CA; subst. split; [assumption|].
        exists v. split; [exact Sa|]. rewrite (views_all _ _ _ SV) in MV. injection MV as ->. inversion SK; subst. unfold values_set. rewrite IS. reflexivity.
      * apply NN; [|exact R]. intros xs vk SK. inversion SK; subst. unfold values_set. rewrite IS. reflexivity.
    + apply NN; [|exact R]. intros xs vk SK. inversion SK; subst. reflexivity.
  - apply NN; [intros xs vk _; reflexivity|exact R].
Qed.

(** Conditions given as Q objects. *)
Definition mk_ref (it : list ref) : hm addr := match it with [RPtr x] => hret x | _ => look (fun _ => Err EUnmodelled) end.
Definition mkv_ref (it : list val) : res val := match it with [v] => Ok v | _ => Err EUnmodelled end.
Lemma for_each_refs : forall W p args, Forall (fun r => exists x, r = RPtr x) args -> forall h,
  for_each (append_unique_part view (w_eq W) (RPtr p)) args h =
  for_each (fun it => doh x <- mk_ref it; append_unique_part view (w_eq W) (RPtr p) (RPtr x)) (map (fun r => [r]) args) h.
Proof.
  intros W p args F. induction F as [|r args [x ->] F IH]; intros h; [reflexivity|].
  cbn [for_each map]. unfold hbind at 1. unfold hbind at 1. unfold hbind at 1. cbn [mk_ref]. unfold hret at 1.
  destruct (append_unique_part view (w_eq W) (RPtr p) (RPtr x) h) as [h1 [u|e]]; [apply IH|reflexivity].
Qed.
Lemma foldE_refs : forall W xs vs,
  foldE (fun s x => commit s (append_unique (w_eq W) s x)) xs vs =
  foldE (fun s it => commit s (do x <- mkv_ref it; append_unique (w_eq W) s x)) xs (map (fun v => [v]) vs).
Proof.
  intros W xs vs. revert xs. induction vs as [|v vs IH]; intros xs; [reflexivity|]. cbn [foldE map mkv_ref bind].
  destruct (commit xs (append_unique (w_eq W) xs v)) as [s [u|e]]; [apply IH|reflexivity].
Qed.
Lemma conds_ptr : forall h r v, stands h r v -> is_conds v = true -> exists x, r = RPtr x.
Proof.
  intros h [a|x] v [[|n] S] H; [discriminate| |eauto|eauto]. cbn in S. destruct a as [w|s|s]; cbn in S; try discriminate.
  destruct (immutable w) eqn:I; [|discriminate]. injection S as <-. destruct w; discriminate.
Qed.
Lemma h_where_spec : forall W kk (G : addr -> Prop) own c sep more p l h items args kwds h' o, (kk = KWhere \/ kk = KOn) ->
  ~ G p -> ~ G l -> inv own h -> parts_at h c sep more p l items -> Forall (okr own h) items ->
  kokr own h args kwds -> kgin G h args kwds -> h_where W kk (RPtr p) args kwds h = (h', o) ->
  added view G own h c sep more p l items h' o (fun C xs y => exists vs vk, Forall2 (stands h) args vs /\ Forall2 (kw_stands h) kwds vk /\
    kcalm C h args kwds /\ y = conds_where W kk xs vs vk).
Proof.
  intros W kk G own c sep more p l h items args kwds h' o HK NP NL J P OI KO KG R. unfold h_where in R.
  set (normal := doh items <- look (fun h => r_parse_args W h pair_opts args kwds);
    for_each (fun it => let (c, x) := r_nth2 it in
      doh p0 <- new_condition kk c x; append_unique_part view (w_eq W) (RPtr p) (RPtr p0)) items) in R.
  assert (N : normal h = (h', o) -> added view G own h c sep more p l items h' o (fun C xs y => exists vs vk, Forall2 (stands h) args vs /\ Forall2 (kw_stands h) kwds vk /\
    kcalm C h args kwds /\ y = match parse_args W pair_opts vs vk with
    | Err e => (xs, Err e)
    | Ok items => foldE (fun s it => let (c, v) := nth2 it in commit s (do x <- mk_condition kk c v; append_unique (w_eq W) s x)) xs items end)).
  { intros RN. eapply added_loop with (mk := new_condition kk) (mkv := mk_condition kk); eauto.
    - apply view_frame.
    - intros G0 own0 h0 a b h1 r J0 OA OB GD M. exact (new_condition_spec kk G0 own0 h0 a b h1 r J0 OA OB GD M).
    - intros own0 h0 a b va vb h1 r J0 OA OB GD M SA SB. apply same_view. exact (new_condition_val kk own0 h0 a b va vb h1 r HK J0 OA OB GD M SA SB). }
  unfold hbind at 1, look at 1 in R.
  destruct (mapM (view h) args) as [vs0|e] eqn:MV.
  2: { injection R as <- <-. apply added_same; auto. intros NG C xs y (vs & vk & SV & _) _. rewrite (views_all _ _ _ SV) in MV. discriminate. }
  assert (NN : (forall xs vk, Forall2 (kw_stands h) kwds vk -> conds_where W kk xs vs0 vk = match parse_args W pair_opts vs0 vk with
    | Err e => (xs, Err e)
    | Ok items => foldE (fun s it => let (c, v) := nth2 it in commit s (do x <- mk_condition kk c v; append_unique (w_eq W) s x)) xs items end) ->
    normal h = (h', o) -> added view G own h c sep more p l items h' o (fun C xs y => exists vs vk, Forall2 (stands h) args vs /\ Forall2 (kw_stands h) kwds vk /\
    kcalm C h args kwds /\ y = conds_where W kk xs vs vk)).
  { intros EV RN. eapply added_more; [apply N; exact RN|]. intros NG C xs y (vs & vk & SV & SK & KC & ->) _.
    assert (vs = vs0) by (pose proof (views_all _ _ _ SV); congruence). subst vs. exists vs0, vk. rewrite EV by exact SK. auto. }
  assert (QQ : (forall xs vk, Forall2 (kw_stands h) kwds vk -> conds_where W kk xs vs0 vk = if negb (is_nilb vs0) && forallb is_conds vs0
      then foldE (fun s x => commit s (append_unique (w_eq W) s x)) xs vs0
      else match parse_args W pair_opts vs0 vk with
    | Err e => (xs, Err e)
    | Ok items => foldE (fun s it => let (c, v) := nth2 it in commit s (do x <- mk_condition kk c v; append_unique (w_eq W) s x)) xs items end) ->
    (if negb (is_nilb vs0) && forallb is_conds vs0 then for_each (append_unique_part view (w_eq W) (RPtr p)) args else normal) h = (h', o) ->
    added view G own h c sep more p l items h' o (fun C xs y => exists vs vk, Forall2 (stands h) args vs /\ Forall2 (kw_stands h) kwds vk /\
    kcalm C h args kwds /\ y = conds_where W kk xs vs vk)).
  { intros EV RQ. destruct (negb (is_nilb vs0) && forallb is_conds vs0) eqn:B; [|apply NN; assumption].
    apply andb_prop in B. destruct B as [_ B]. pose proof MV as MV'. apply views in MV'.
    assert (PT : Forall (fun r => exists x, r = RPtr x) args).
    { clear - MV' B. induction MV' as [|r v args vs S F IH]; constructor; cbn in B; apply andb_prop in B; destruct B; auto. eapply conds_ptr; eauto. }
    rewrite for_each_refs in RQ by exact PT.
    destruct (loop_spec view (w_eq W) mk_ref mkv_ref (fun it => exists x, it = [RPtr x]) view_frame) with
      (G := G) (own := own) (c := c) (sep := sep) (more := more) (p := p) (l := l) (its := map (fun r => [r]) args) (h := h) (items := items) (h' := h') (o := o)
      (body := fun it => doh x <- mk_ref it; append_unique_part view (w_eq W) (RPtr p) (RPtr x))
      (f := fun s it => commit s (do x <- mkv_ref it; append_unique (w_eq W) s x))
      as (add & AF & P' & OI' & V); auto.
    + intros G0 own0 h0 it h1 r [x ->] J0 O0 D0 M0. cbn in M0. injection M0 as <- <-. split; [apply after_refl; exact J0|].
      intros q [= <-]. inversion O0; assumption.
    + intros own0 h0 it vit h1 r [x ->] J0 O0 D0 M0 S0. cbn in M0. injection M0 as <- <-.
      inversion S0 as [|? v ? ? Sx S1]; subst. inversion S1; subst. cbn. split; [apply stands_view; exact Sx|].
      intros C FC _. inversion FC; assumption.
    + clear - PT. induction PT as [|r args [x ->] PT IH]; constructor; eauto.
    + destruct KO as [OA _]. clear - OA. induction OA; constructor; auto.
    + destruct KG as [GA _]. clear - GA. induction GA; constructor; auto. constructor; [apply gin_gdir; assumption|constructor].
    + exists add. split; [exact AF|]. split; [exact P'|]. split; [exact OI'|].
      intros NG C xs y CCl CCf (vs & vk & SV & SK & [CA CK] & ->) SX CI.
      assert (vs = vs0) by (pose proof (views_all _ _ _ SV); congruence). subst vs.
      rewrite EV by exact SK. rewrite foldE_refs. apply V; auto.
      * clear - SV. induction SV; constructor; auto.
      * clear - CA. induction CA; constructor; auto. }
  destruct vs0 as [|v [|v2 vs0]].
  - apply NN; [intros xs vk _; reflexivity|exact R].
  - destruct kwds as [|kw kwds].
    + destruct (is_sql v) eqn:IS.
      * pose proof MV as MV'. apply views in MV'. inversion MV' as [|a ? args' ? Sa MV2]; subst. inversion MV2; subst.
        destruct KO as [OA _]. inversion OA; subst.
        eapply added_push; eauto. intros NG C xs y (vs & vk & SV & SK & [CA _] & ->). inversion CA; subst. split; [assumption|].
        exists v. split; [exact Sa|]. rewrite (views_all _ _ _ SV) in MV. injection MV as ->. inversion SK; subst. unfold conds_where. rewrite IS. reflexivity.
      * apply NN; [|exact R]. intros xs vk SK. inversion SK; subst. unfold conds_where. rewrite IS. reflexivity.
    + apply QQ; [|exact R]. intros xs vk SK. inversion SK; subst. reflexivity.
  - apply QQ; [intros xs vk _; reflexivity|exact R].
Qed.
