(** Proofs: the exceptions of a builder call and their causes (C44). *)
From Coq Require Import Lia Permutation.
From Verif Require Import Base BaseFacts NumFmt Value Backend Eq Render RenderFacts ParseArgs Build Queries History
  SpecHistory SpecClauses SpecArgs SpecLists SpecBackends SpecErrors SpecSame SpecRaise PfHistories PfArgs PfClauses PfStatements PfLists PfClauseText PfBackends PfErrors.
From Verif Require PfCarry PfFails.
Open Scope N_scope.

Lemma only_weak : forall (P Q : exn -> Prop) A (x : res A), (forall e, P e -> Q e) -> only P x -> only Q x.
Proof. intros P Q A x H O e X. exact (H e (O e X)). Qed.
Lemma only_mapM : forall P A B (f : A -> res B) l, (forall x, In x l -> only P (f x)) -> only P (mapM f l).
Proof.
  intros P A B f l H. induction l as [|x l IH]; [apply only_ok|]. cbn [mapM]. apply only_bind; [apply H; now left|]. intros a _.
  apply only_bind; [apply IH; intros y I; apply H; now right|]. intros; apply only_ok.
Qed.

(** ** Reading the arguments *)
Lemma parse_only_dict : forall W o a k e, p_dict o = true -> parse_args W o a k = Err e ->
  e = EInvalidArgument \/ exists items, a = [VDict items] /\ sort_items W items = Err e.
Proof.
  intros W o a k e D. set (P := fun e => e = EInvalidArgument \/ exists items, a = [VDict items] /\ sort_items W items = Err e).
  assert (LP : lets P) by now left.
  assert (CB : forall l, only P (create_batch o l)) by (intros l; unfold create_batch; destruct (Nat.ltb _ _); [apply only_err|apply only_ok]).
  assert (PL : forall l, only P (parse_list o l)).
  { intros l. apply only_mapM. intros x _. unfold parse_list_item. destruct x; try (destruct (Nat.eqb _ _); [apply CB|apply only_err]).
    destruct k0; try apply CB; (destruct (Nat.eqb _ _); [apply CB|apply only_err]). }
  assert (PI : forall l, only P (parse_items o l)) by (intros l; apply only_mapM; intros x _; apply CB).
  revert e. change (only P (parse_args W o a k)). unfold parse_args. rewrite D. apply only_bind.
  - destruct a as [|x rest]; [apply only_ok|]. destruct (_ && _); [apply only_bind; [apply CB|intros; apply only_ok]|].
    destruct x; try apply PL; [destruct k0; destruct rest; try apply PL; destruct (p_list o); apply PL|]. destruct rest; [apply only_ok|apply PL].
  - intros f _. apply only_bind; [|intros; apply only_ok].
    assert (K : only P (match k with [] => Ok [] | _ => parse_items o (sort_kwds k) end)) by (destruct k; [apply only_ok|apply PI]).
    destruct a as [|x rest]; [destruct k; exact K|]. destruct x; try (destruct k; exact K). destruct rest; [|destruct k; exact K].
    apply only_bind; [|intros; apply PI]. intros e X. right. eauto.
Qed.
Lemma dk_dup_nodup : forall l, (forall k, In k l -> (exists s, k = VStr s) \/ exists n, k = VInt n) -> NoDup l ->
  forall W ks, mapM (dict_key W) l = Ok ks -> dk_dup ks = false.
Proof.
  induction l as [|x l IH]; intros K N W ks M; cbn [mapM] in M; [now injection M as <-|].
  inversion N as [|? ? N1 N2]; subst. destruct (dict_key W x) as [d|] eqn:D; [|discriminate]. destruct (mapM _ l) as [ds|] eqn:M'; [|discriminate].
  injection M as <-. cbn [dk_dup]. rewrite (IH (fun k I => K k (or_intror I)) N2 W ds M'), Bool.orb_false_r.
  destruct (existsb (dk_eq d) ds) eqn:X; [|reflexivity]. exfalso. apply N1. apply existsb_exists in X. destruct X as [d' [I X]].
  assert (J : exists y, In y l /\ dict_key W y = Ok d').
  { clear - M' I. revert ds M' I. induction l as [|y l IH]; intros ds M I; cbn [mapM] in M; [injection M as <-; destruct I|].
    destruct (dict_key W y) as [d|] eqn:D; [|discriminate]. destruct (mapM _ l) as [ds'|]; [|discriminate]. injection M as <-.
    destruct I as [<-|I]; [exists y; split; [now left|exact D]|]. destruct (IH ds' eq_refl I) as [z [J Z]]. exists z. split; [now right|exact Z]. }
  destruct J as [y [J Y]]. destruct (K x (or_introl eq_refl)) as [[s ->]|[n ->]]; cbn [dict_key] in D; injection D as <-;
    destruct (K y (or_intror J)) as [[s' ->]|[n' ->]]; cbn [dict_key] in Y; injection Y as <-; cbn [dk_eq] in X; try discriminate.
  - apply seqb_eq in X. now subst.
  - apply Z.eqb_eq in X. now subst.
Qed.
Lemma mapM_first : forall A B (f : A -> res B) l e, mapM f l = Err e -> exists x, In x l /\ f x = Err e.
Proof.
  intros A B f. induction l as [|x l IH]; intros e H; cbn [mapM] in H; [discriminate|].
  destruct (f x) as [y|e0] eqn:F; cbn [bind] in H; [|exists x; split; [now left|congruence]].
  destruct (mapM f l) as [ys|e0] eqn:M; cbn [bind] in H; [discriminate|]. injection H as ->. destruct (IH e eq_refl) as [z [I Z]]. exists z. split; [now right|exact Z].
Qed.
Lemma sort_raises : forall W items e, sort_items W items = Err e ->
  (e = ETypeError /\ (exists k, In k (map fst items) /\ ((exists s, k = VStr s) \/ is_sql k = true)) /\ (exists k, In k (map fst items) /\ ((exists n, k = VInt n) \/ exists b, k = VBool b))) \/
  (e = EUnmodelled /\ (~ NoDup (map fst items) \/ exists k, In k (map fst items) /\ (forall s, k <> VStr s) /\ forall n, k <> VInt n)) \/
  (exists k, In k (map fst items) /\ is_sql k = true /\ w_str W k = Err e).
Proof.
  intros W items e H.
  assert (M : mapM (fun p => dict_key W (fst p)) items = mapM (dict_key W) (map fst items)).
  { clear. induction items as [|x l IH]; [reflexivity|]. cbn [mapM map]. now rewrite IH. }
  assert (S : sort_items W items = match items with [] | [_] => Ok items | _ =>
      do ks <- mapM (dict_key W) (map fst items);
      if existsb is_dkother ks || dk_dup ks then Err EUnmodelled
      else if forallb is_dkstr ks || forallb is_dkint ks then Ok (map snd (osort dk_lt (combine ks items))) else Err ETypeError end).
  { rewrite <- M. reflexivity. }
  rewrite S in H. clear S M. destruct items as [|p1 [|p2 items]]; try discriminate H.
  set (l := map fst (p1 :: p2 :: items)) in *. clearbody l.
  destruct (mapM (dict_key W) l) as [ks|e0] eqn:MK; cbn [bind] in H.
  2:{ injection H as ->. apply mapM_first in MK. destruct MK as [k [I K]]. right; right. exists k. split; [exact I|]. unfold dict_key in K.
      destruct k; cbn [is_sql] in K; try discriminate K; (split; [reflexivity|]); destruct (w_str W _); try discriminate K; now injection K as ->. }
  assert (F2 : Forall2 (fun k d => dict_key W k = Ok d) l ks).
  { clear -MK. revert ks MK. induction l as [|x l IH]; intros ks M; cbn [mapM] in M; [injection M as <-; constructor|].
    destruct (dict_key W x) as [d|] eqn:D; [|discriminate]. destruct (mapM _ l) as [ds|]; [|discriminate]. injection M as <-. constructor; [exact D|now apply IH]. }
  assert (Back : forall d, In d ks -> exists k, In k l /\ dict_key W k = Ok d).
  { clear -F2. induction F2 as [|x d l ks A F IH]; [intros d []|]. intros d' [<-|I]; [exists x; split; [now left|exact A]|].
    destruct (IH d' I) as [k [J K]]. exists k. split; [now right|exact K]. }
  destruct (existsb is_dkother ks) eqn:O; cbn [orb] in H.
  { injection H as <-. right; left. split; [reflexivity|]. right. apply existsb_exists in O. destruct O as [d [I O]]. destruct (Back d I) as [k [J K]].
    exists k. split; [exact J|]. split; intros ? ->; cbn [dict_key] in K; injection K as <-; discriminate O. }
  destruct (dk_dup ks) eqn:U.
  { injection H as <-. right; left. split; [reflexivity|].
    assert (C : (exists k, In k l /\ (forall s, k <> VStr s) /\ forall n, k <> VInt n) \/ (forall k, In k l -> (exists s, k = VStr s) \/ exists n, k = VInt n)).
    { clear. induction l as [|x l IH]; [right; intros k []|]. destruct IH as [[k [I K]]|IH]; [left; exists k; split; [now right|exact K]|].
      destruct x; try (left; eexists; split; [left; reflexivity|split; intros; discriminate]); right; (intros k [<-|I]; [|exact (IH k I)]); [right; eauto|left; eauto]. }
    destruct C as [C|C]; [now right|]. left. intros N. rewrite (dk_dup_nodup l C N W ks MK) in U. discriminate U. }
  cbn [orb] in H. destruct (forallb is_dkstr ks) eqn:A; [discriminate H|]. destruct (forallb is_dkint ks) eqn:B; [discriminate H|]. injection H as <-.
  left. split; [reflexivity|].
  assert (NotAll : forall (f : dkey -> bool) ks, forallb f ks = false -> exists d, In d ks /\ f d = false).
  { intros f. induction ks0 as [|d ks0 IH]; [discriminate|]. cbn [forallb]. destruct (f d) eqn:G; [|exists d; split; [now left|exact G]].
    cbn [andb]. intros X. destruct (IH X) as [d' [I Y]]. exists d'. split; [now right|exact Y]. }
  assert (NO : forall d, In d ks -> is_dkother d = false).
  { intros d I. destruct (is_dkother d) eqn:G; [|reflexivity]. rewrite <- O. symmetry. apply existsb_exists. eauto. }
  split.
  - destruct (NotAll _ _ B) as [d [I X]]. pose proof (NO d I) as Y. destruct (Back d I) as [k [J K]]. destruct d; try discriminate.
    exists k. split; [exact J|]. unfold dict_key in K. destruct k; cbn [is_sql] in K; try discriminate K; first [left; eexists; reflexivity|right; reflexivity].
  - destruct (NotAll _ _ A) as [d [I X]]. pose proof (NO d I) as Y. destruct (Back d I) as [k [J K]]. destruct d; try discriminate.
    exists k. split; [exact J|]. unfold dict_key in K. destruct k; cbn [is_sql] in K; try discriminate K; eauto; destruct (w_str W _); discriminate K.
Qed.
Lemma parse_raises : forall W o a k e, p_dict o = true -> parse_args W o a k = Err e ->
  e = EInvalidArgument \/ keys_raise a e \/ exists items x, a = [VDict items] /\ In x (map fst items) /\ is_sql x = true /\ w_str W x = Err e.
Proof.
  intros W o a k e D H. apply parse_only_dict in H; [|exact D]. destruct H as [H|[items [A S]]]; [now left|]. right.
  destruct (sort_raises W items e S) as [K|[K|[x [I K]]]]; [left; exists items; split; [exact A|now left]|left; exists items; split; [exact A|now right]|].
  right. exists items, x. auto.
Qed.
(** The second entries of what is read. *)
Lemma second_given : forall W a k bs b, parse_args W alias_opts a k = Ok bs -> In b bs -> let d := snd (nth2 b) in
  d = VNone \/ (exists c, In (c, d) k) \/ (exists items c, a = [VDict items] /\ In (c, d) items) \/ (exists x c, In x a /\ group x [c; d]).
Proof.
  intros W a k bs b P I. cbv zeta.
  assert (BI : forall items bs, parse_items alias_opts items = Ok bs -> In b bs -> exists c, In (c, snd (nth2 b)) items).
  { intros items bs0 H J. rewrite (parse_items_batches alias_opts items eq_refl) in H. injection H as <-. apply in_map_iff in J.
    destruct J as [[c d] [<- J]]. exists c. exact J. }
  assert (BL : forall l bs, (forall x, In x l -> In x a) -> parse_list alias_opts l = Ok bs -> In b bs ->
     snd (nth2 b) = VNone \/ exists x c, In x a /\ group x [c; snd (nth2 b)]).
  { induction l as [|x l IH]; intros bs0 Q H J; cbn [parse_list mapM] in H; [injection H as <-; destruct J|].
    destruct (parse_list_item alias_opts x) as [b0|] eqn:X; [|discriminate]. unfold parse_list in IH. destruct (mapM (parse_list_item alias_opts) l) as [bs1|]; [|discriminate].
    injection H as <-. destruct J as [<-|J]; [|exact (IH bs1 (fun y I => Q y (or_intror I)) eq_refl J)].
    unfold parse_list_item in X. cbn [p_min alias_opts Nat.eqb] in X.
    assert (CB : forall l, create_batch alias_opts l = Ok b0 -> snd (nth2 b0) = VNone \/ exists c, l = [c; snd (nth2 b0)]).
    { intros l0 C. unfold create_batch in C. cbn [p_max alias_opts] in C. destruct l0 as [|y [|z [|w l0]]]; cbn in C; try discriminate C; injection C as <-; cbn; eauto. }
    assert (One : create_batch alias_opts [x] = Ok b0 -> snd (nth2 b0) = VNone).
    { intros C. destruct (CB _ C) as [E|[c E]]; [exact E|discriminate E]. }
    destruct x; try (left; exact (One X)). destruct k0; try (left; exact (One X));
      (destruct (CB _ X) as [E|[c E]]; [now left|right; eexists; exists c; split; [apply Q; left; reflexivity|rewrite <- E]; (now left) || (now right)]). }
  unfold parse_args, bind in P. cbn [p_min p_max p_dict p_list alias_opts Nat.ltb Nat.leb andb] in P.
  assert (KW : forall bs, (match k with [] => Ok [] | _ => parse_items alias_opts (sort_kwds k) end) = Ok bs -> In b bs -> exists c, In (c, snd (nth2 b)) k).
  { intros bs0 H J. destruct k as [|p k]; [injection H as <-; destruct J|]. destruct (BI _ _ H J) as [c C].
    unfold sort_kwds in C. apply in_map_iff in C. destruct C as [[s v] [Q C]]. cbn [fst snd] in Q. injection Q as _ Q. subst v. exists s.
    refine (Permutation_in _ (Permutation_sym (osort_perm _ _)) C). }
  destruct a as [|x a].
  { destruct k as [|p k]; [injection P as <-; destruct I|]. destruct (parse_items _ _) as [bt|] eqn:Q; [|discriminate]. injection P as <-.
    right; left. exact (KW bt eq_refl I). }
  destruct a as [|y a].
  - assert (G : match parse_list alias_opts [x] with Ok bt => match (match k with [] => Ok [] | _ => parse_items alias_opts (sort_kwds k) end) with Ok bk => Ok (bt ++ bk) | Err e => Err e end | Err e => Err e end = Ok bs ->
      snd (nth2 b) = VNone \/ (exists c, In (c, snd (nth2 b)) k) \/ (exists items c, [x] = [VDict items] /\ In (c, snd (nth2 b)) items) \/ (exists y c, In y [x] /\ group y [c; snd (nth2 b)])).
    { intros H. destruct (parse_list alias_opts [x]) as [bt|] eqn:Q; [|discriminate]. destruct (match k with [] => Ok [] | _ => _ end) as [bk|] eqn:K; [|discriminate].
      injection H as <-. apply in_app_or in I. destruct I as [I|I]; [destruct (BL [x] bt (fun y H => H) ltac:(first [exact Q | reflexivity]) I) as [E|E]; auto|right; left; exact (KW bk eq_refl I)]. }
    destruct x; try (apply G; destruct k; exact P).
    + destruct k0; apply G; destruct k; exact P.
    + cbn [app] in P. destruct (sort_items W l) as [s|] eqn:S; [|discriminate]. destruct (parse_items alias_opts s) as [bt|] eqn:Q; [|discriminate].
      injection P as <-. destruct (BI _ _ Q I) as [c C]. right; right; left. exists l, c. split; [reflexivity|].
      clear -C S. unfold sort_items in S. destruct l as [|p1 [|p2 l]]; [injection S as <-; exact C|injection S as <-; exact C|].
      destruct (mapM _ _) as [ks|] eqn:M; [|discriminate]. cbn [bind] in S. destruct (_ || _); [discriminate|]. destruct (_ || _); [|discriminate].
      injection S as <-. apply in_map_iff in C. destruct C as [[d p] [Q C]]. cbn [snd] in Q. subst p.
      pose proof (Permutation_in _ (Permutation_sym (osort_perm _ _)) C) as C2. now apply in_combine_r in C2.
  - assert (G : match parse_list alias_opts (x :: y :: a) with Ok bt => match (match k with [] => Ok [] | _ => parse_items alias_opts (sort_kwds k) end) with Ok bk => Ok (bt ++ bk) | Err e => Err e end | Err e => Err e end = Ok bs ->
      snd (nth2 b) = VNone \/ (exists c, In (c, snd (nth2 b)) k) \/ (exists items c, x :: y :: a = [VDict items] /\ In (c, snd (nth2 b)) items) \/ (exists z c, In z (x :: y :: a) /\ group z [c; snd (nth2 b)])).
    { intros H. destruct (parse_list alias_opts (x :: y :: a)) as [bt|] eqn:Q; [|discriminate]. destruct (match k with [] => Ok [] | _ => _ end) as [bk|] eqn:K; [|discriminate].
      injection H as <-. apply in_app_or in I. destruct I as [I|I]; [destruct (BL _ bt (fun y H => H) ltac:(first [exact Q | reflexivity]) I) as [E|E]; auto|right; left; exact (KW bk eq_refl I)]. }
    destruct x; try (apply G; destruct k; exact P). destruct k0; apply G; destruct k; exact P.
Qed.
Lemma mk_sort_raises : forall E v e, mk_sort E v = Err e -> e = EInvalidArgument \/ (e = EAttributeError /\ (is_sql v = true \/ exists n, v = VInt n)).
Proof.
  intros E v e. unfold mk_sort, check_type. destruct (negb _) eqn:C; [intros H; injection H as <-; now left|].
  destruct v; cbn in C; try discriminate C; try (intros H; injection H as <-; right; split; [reflexivity|]; (left; reflexivity) || (right; eauto)); try discriminate.
  - cbv zeta. destruct (seqb _ _); [discriminate|]. destruct (seqb _ _); [discriminate|]. intros H. injection H as <-. now left.
  - destruct k; discriminate C.
Qed.
Lemma offset_raises : forall l o e, snd (set_offset l o) = Err e -> e = EInvalidArgument \/ (e = ETypeError /\ is_sql o = true).
Proof.
  intros l o e. unfold set_offset, check_type. destruct (negb _) eqn:C; [cbn; intros H; injection H as <-; now left|].
  destruct (truthy o) eqn:TR; [|discriminate]. destruct o; cbn in C; try discriminate C; cbn [py_int snd]; try discriminate;
    try (destruct k; discriminate C); intros H; injection H as <-; right; (split; [reflexivity|]); reflexivity || discriminate TR.
Qed.
Lemma limit_raises : forall l v o e, snd (set_limit l v o) = Err e -> e = EInvalidArgument \/ (e = ETypeError /\ (is_sql v = true \/ is_sql o = true)).
Proof.
  intros l v o e. unfold set_limit, check_type. destruct (negb _) eqn:C; [cbn; intros H; injection H as <-; now left|].
  destruct v; cbn in C; try discriminate C; cbn [py_int snd]; try discriminate; try (destruct k; discriminate C);
    try (intros H; injection H as <-; right; split; [reflexivity|now left]).
  destruct (is_none o); [discriminate|]. intros H. apply offset_raises in H. destruct H as [H|[H1 H2]]; auto.
Qed.

(** ** Objects whose texts raise only some exceptions *)
Section Raise.
  Context (E : env) (P : exn -> Prop) {L : lets P} (f : exn -> bool).
  Hypothesis prints_data : forall v, e_pystr E v <> None.
  Hypothesis f_P : forall e, f e = true <-> P e.
  Inductive tamed : val -> Prop :=
  | td : forall v, (is_sql v = true -> only P (text E v)) ->
      (textual_eq v = false -> forall x, In x (children v) -> tamed x) -> tamed v.
  Notation KD := tamed.
  Lemma only_pytext : forall v, only P (pytext E v).
  Proof.
    intros v. assert (D : only P (match e_pystr E v with Some s => Ok s | None => Err EUnmodelled end)).
    { destruct (e_pystr E v) eqn:X; [apply only_ok|]. now destruct (prints_data v). }
    destruct v; try exact D; apply only_ok.
  Qed.
  Lemma td_prints : forall v, KD v -> only P (text E v).
  Proof.
    intros v [w X _]. destruct (is_sql w) eqn:S; [apply X; reflexivity|]. rewrite text_unfold.
    destruct w; try discriminate S; apply only_pytext.
  Qed.
  Lemma only_ref : forall v, KD v -> only P (sqlref E (text E) v).
  Proof.
    intros v T. pose proof (td_prints v T) as X. unfold sqlref.
    destruct v; cbn [is_sql]; try apply only_ok; try exact X; (apply only_bind; [exact X|]; intros; apply only_ok).
  Qed.
  Lemma td_child : forall v x, KD v -> textual_eq v = false -> In x (children v) -> KD x.
  Proof. intros v x [w _ C] T I. exact (C T x I). Qed.
  Lemma only_value : forall v, KD v -> only P (sqlvalue E (text E) v).
  Proof.
    intros v. induction v as [v IH] using val_ind_children. intros T. pose proof (td_prints v T) as X.
    destruct v; cbn [sqlvalue]; try apply only_ok; try exact X; try (apply only_bind; [exact X|]; intros; apply only_ok).
    destruct (truthy _); [|apply only_err]. apply only_bind; [|intros; apply only_ok]. apply only_mapM. intros x I. apply IH; [exact I|].
    exact (td_child _ _ T eq_refl I).
  Qed.
  Lemma td_filter : forall k l g, KD (VSeq k l) -> KD (VSeq KList (filter g l)).
  Proof.
    intros k l g T. constructor; [discriminate|]. intros _ x I. cbn [children] in I. apply filter_In in I.
    apply (td_child _ _ T eq_refl). apply I.
  Qed.
  Lemma only_plain : forall (c x : res str) rk, only P c -> only P x -> only P (fmt_plain c rk x).
  Proof. intros c x rk Hc Hx. apply only_bind; [exact Hc|]. intros a _. apply only_bind; [exact Hx|]. intros; apply only_ok. Qed.
  Lemma only_condition : forall k c rk v, KD c -> KD v -> only P (text E (VCond k c rk v)).
  Proof.
    intros k c rk v Tc Tv. rewrite text_unfold. cbn [str_body].
    assert (A : forall w, KD w -> only P (transformer E (text E) k v w)).
    { intros w Tw. unfold transformer. destruct k; [now apply only_value|]. destruct v; now (apply only_value || apply only_ref). }
    pose proof (only_ref c Tc) as C.
    assert (In_ : only P (fmt_in (sqlref E (text E) c) rk (transformer E (text E) k v) v)).
    { unfold fmt_in. destruct v as [| | | | | | | | |ks l| | | | | | | | | | | | | | | | | | | | |]; try (apply only_plain; [exact C|now apply A]).
      cbv zeta. pose proof (A _ (td_filter _ _ (fun x => negb (is_none x)) Tv)) as F.
      destruct (existsb _ _); [|now apply only_plain]. destruct (is_nilb _).
      - destruct rk; (apply only_bind; [exact C|]; intros; apply only_ok).
      - destruct rk; (apply only_bind; [exact C|]; intros ? _; apply only_bind; [exact F|]; intros; apply only_ok). }
    unfold fmt_condition. destruct rk; try exact In_; (apply only_plain; [exact C|now apply A]).
  Qed.
  Lemma td_parts : forall v, match v with VSeq _ l => l <> [] | VRel _ _ | VCond _ _ _ _ | VValue _ _ => True | _ => False end ->
    (forall x, In x (children v) -> KD x) -> KD v.
  Proof.
    intros v K C. constructor; [|auto]. intros S.
    destruct v; try destruct K; [discriminate S| | |]; cbn [children] in C.
    - rewrite text_unfold. cbn [str_body]. apply only_bind; [|intros; apply only_ok]. apply td_prints, C. now left.
    - apply only_condition; apply C; cbn; auto.
    - rewrite text_unfold. cbn [str_body]. unfold value_str. apply only_bind; [apply only_ref, C; cbn; auto|]. intros ? _.
      apply only_bind; [apply only_value, C; cbn; auto|]. intros; apply only_ok.
  Qed.
  Lemma td_listed : forall k l, KD (VSeq k l) -> KD (VSeq KList l).
  Proof. intros k l T. constructor; [discriminate|]. intros _ x I. exact (td_child _ _ T eq_refl I). Qed.
  Lemma td_leaf : forall v, is_sql v = false -> children v = [] -> match v with VSeq _ _ | VDict _ => False | _ => True end -> KD v.
  Proof. intros v S C D. constructor; [congruence|]. rewrite C. intros _ x []. Qed.
  Lemma td_within : forall x v, within x v -> KD v -> KD x.
  Proof. intros x v W. induction W as [v|v c w T I W IH]; [auto|]. intros K. apply IH. exact (td_child _ _ K T I). Qed.
  (** A world that compares such objects as the library does and raises only these exceptions. *)
  Definition hush (v : val) : res str := match text E v with Ok t => Ok t | Err e => if f e then Err e else Ok [] end.
  Definition hushed : world := MkWorld E (pyeq hush) (text E).
  Lemma hushed_alike : PfCarry.alike KD (pure_world E) hushed.
  Proof.
    split; [|split; reflexivity]. intros a b Ta Tb. cbn [pure_world hushed w_eq]. unfold py_eq. apply PfFails.calm_within. intros v W S.
    assert (K : KD v) by (destruct W as [W|W]; [exact (td_within _ _ W Ta)|exact (td_within _ _ W Tb)]).
    unfold hush. pose proof (td_prints v K) as X. destruct (text E v) as [t|e]; [reflexivity|].
    rewrite (proj2 (f_P e)); [reflexivity|]. exact (X e eq_refl).
  Qed.
  Lemma hushed_only : forall (Q : exn -> Prop), (forall e, P e -> Q e) -> only2 Q (w_eq hushed).
  Proof.
    intros Q H. apply tot_pyeq. intros v e X. apply H, f_P. unfold hush in X. destruct (text E v) as [t|e']; [discriminate|].
    destruct (f e') eqn:F; [|discriminate]. injection X as <-. exact F.
  Qed.
  Notation CA := hushed_alike.
  Lemma one_arg : forall v, KD v -> args_given KD [v] [].
  Proof. intros v T. split; [constructor; [exact T|constructor]|constructor]. Qed.
  Lemma pair_tamed : forall t a, KD t -> KD a -> KD (VSeq KTuple [t; a]).
  Proof. intros t a T A. apply td_parts; [discriminate|]. intros x [<-|[<-|[]]]; assumption. Qed.
  Lemma key_prints : forall a k items x, args_given KD a k -> a = [VDict items] -> In x (map fst items) -> only P (text E x).
  Proof.
    intros a k items x [F _] -> I. inversion F as [|? ? T _]; subst. apply td_prints. apply (td_child _ _ T eq_refl). cbn [children].
    apply in_map_iff in I. destruct I as [p [<- I]]. apply in_flat_map. exists p. split; [exact I|]. destruct p; now left.
  Qed.
  Lemma filtered : forall a k, args_given KD a k -> args_given KD (filter truthy a) k.
  Proof. intros a k [F G]. split; [|exact G]. rewrite Forall_forall in *. intros x I. apply filter_In in I. apply F, I. Qed.
  Section With.
    Context (I : exn -> Prop).
    Definition R (e : exn) : Prop := P e \/ e = EInvalidQuery \/ I e.
    Instance lets_R : lets R := or_introl L.
    Lemma parse_R : forall o a k, p_dict o = true -> args_given KD a k -> (forall e, keys_raise a e -> I e) -> only R (parse_args hushed o a k).
    Proof.
      intros o a k D G H e X. destruct (parse_raises hushed o a k e D X) as [->|[K|[items [x [A [J [_ T]]]]]]]; [left; exact L|right; right; now apply H|].
      left. exact (key_prints a k items x G A J e T).
    Qed.
    Lemma eq_R : only2 R (w_eq hushed).
    Proof. apply hushed_only. intros e; now left. Qed.
    Lemma where_R : forall k ps a kw, Forall KD ps -> args_given KD a kw -> (forall e, keys_raise a e -> I e) -> only R (snd (conds_where (pure_world E) k ps a kw)).
    Proof.
      intros k ps a kw F G H. rewrite (proj1 (PfCarry.where_alike KD td_leaf td_child td_parts td_listed _ _ k ps a kw CA F G)).
      apply only_where_read; [exact eq_R|]. now apply parse_R.
    Qed.
    Lemma values_R : forall ps a kw, Forall KD ps -> args_given KD a kw -> (forall e, keys_raise a e -> I e) -> only R (snd (values_set (pure_world E) ps a kw)).
    Proof.
      intros ps a kw F G H. rewrite (proj1 (PfCarry.values_alike KD td_leaf td_child td_parts _ _ ps a kw CA F G)).
      apply only_values_read; [exact eq_R|]. now apply parse_R.
    Qed.
    Lemma columns_R : forall cs a kw, Forall (PfCarry.tl2 KD) cs -> args_given KD a kw -> (forall e, keys_raise a e -> I e) -> only R (snd (columns_add (pure_world E) cs a kw)).
    Proof.
      intros ps a kw F G H. rewrite (proj1 (PfCarry.columns_alike KD td_leaf td_child _ _ ps a kw CA F G)).
      apply only_columns_read; [exact eq_R|]. now apply parse_R.
    Qed.
    Lemma tables_R : forall ts a kw, Forall (PfCarry.tlt KD) ts -> args_given KD a kw -> (forall e, keys_raise (filter truthy a) e -> I e) -> only R (snd (tables_set (pure_world E) ts a kw)).
    Proof.
      intros ts a kw F G H. rewrite (proj1 (PfCarry.tables_alike KD td_leaf td_child _ _ ts a kw CA F G)).
      apply only_tables_read; [exact eq_R|]. apply parse_R; [reflexivity|now apply filtered|exact H].
    Qed.
    Lemma orders_R : forall os a kw, Forall (PfCarry.tl1 KD) os -> args_given KD a kw -> (forall e, order_raises a kw e -> I e) -> only R (snd (orders_add (pure_world E) os a kw)).
    Proof.
      intros os a kw F G H. rewrite (proj1 (PfCarry.orders_alike KD td_leaf td_child _ _ os a kw CA F G)).
      apply only_orders_read; [exact eq_R|apply parse_R; [reflexivity|exact G|intros e K; apply H; now left]|].
      intros bs b X J e S. destruct (mk_sort_raises _ _ _ S) as [->|[-> O]]; [left; exact L|]. right; right. apply H. right. split; [reflexivity|].
      exists (snd (nth2 b)). split; [exact O|]. destruct (second_given _ _ _ _ _ X J) as [N|M]; [|exact M]. cbv zeta in N. rewrite N in O.
      destruct O as [O|[n O]]; discriminate O.
    Qed.
    Lemma join_R : forall ty ts arg, (forall e, text E arg = Err e -> I e) -> only R (snd (tables_join (pure_world E) ty ts arg)).
    Proof.
      intros ty ts arg H.
      assert (G : forall g : table val -> table val * outcome, (forall x, only R (snd (g x))) -> only R (snd (on_last_table g ts))).
      { intros g K e. unfold on_last_table. destruct (upd_last g ts) as [[r o]|] eqn:U.
        - cbn [snd]. intros ->. exact (upd_last_only _ g R (fun x e => K x e) ts r e U).
        - intros Q. injection Q as <-. right; now left. }
      assert (J : forall ty x, only R (snd (table_join (pure_world E) ty arg x))).
      { intros ty0 x. unfold table_join. apply only_commit, only_bind; [|intros; apply only_ok].
        assert (MT : forall n a, only R (mk_table n a)).
        { intros n a. unfold mk_table. destruct (negb _); [apply only_err|]. destruct (negb _); [apply only_err|apply only_ok]. }
        assert (O : only R (match text E arg with Ok _ => @Err (val * val) EInvalidArgument | Err e => Err e end)).
        { intros e X. destruct (text E arg) as [t|e'] eqn:T; injection X as <-; [left; exact L|right; right; now apply H]. }
        unfold join_target. cbn [w_str pure_world].
        destruct arg as [| | | | |s| | | |k l|l| | | | | | | | | | | | | | | | | | | |]; try exact O; try apply MT.
        - destruct k; try exact O; destruct l as [|n [|a [|]]]; try exact O; apply MT.
        - destruct l as [|[n a] [|]]; try exact O; apply MT. }
      unfold tables_join. destruct ty; try (apply G; apply J).
      destruct (supports_full_join _); [apply G; apply J|]. intros e Q. injection Q as <-. right; now left.
    Qed.
    Lemma on_R : forall ts a k, Forall (PfCarry.tlt KD) ts -> args_given KD a k -> (forall e, keys_raise a e -> I e) -> only R (snd (tables_on (pure_world E) ts a k)).
    Proof.
      intros ts a k T A K. destruct (on_shape ts) as [F|[ts0 [n [al [js [ty [n' [al' [ons ->]]]]]]]]].
      - rewrite F. intros e Q. injection Q as <-. right; now left.
      - rewrite on_rebuilt, lift_snd. apply where_R; [|exact A|exact K].
        apply Forall_app in T. destruct T as [_ T]. inversion T as [|? ? T1 _]; subst. unfold PfCarry.tlt, table_vals in T1. cbn [tb_joins] in T1.
        rewrite Forall_forall in *. intros x J. apply T1. right; right. apply in_flat_map. eexists. split; [apply in_or_app; right; left; reflexivity|].
        right; right; exact J.
    Qed.
  End With.
  Ltac done_R := let e := fresh in let H := fresh in intros e H; exact H.
  Lemma sel_raises : forall q op, PfCarry.tl_sel KD q -> sel_given KD op -> only (R (sel_irregular E op)) (snd (sel_step (pure_world E) q op)).
  Proof.
    intros q op [I1 [I2 [I3 [I4 [I5 I6]]]]] T.
    destruct op; cbn [sel_given sel_step] in *; rewrite ?lift_snd; cbn [snd].
    - apply columns_R; [assumption|assumption|done_R].
    - apply tables_R; [assumption|assumption|done_R].
    - destruct T as [Tt Ta]. apply tables_R; [assumption|apply one_arg, pair_tamed; assumption|]. intros e [items [A _]]. discriminate A.
    - apply join_R. done_R.
    - apply on_R; [assumption|assumption|done_R].
    - apply where_R; [assumption|assumption|done_R].
    - apply where_R; [assumption|assumption|done_R].
    - apply orders_R; [assumption|assumption|done_R].
    - apply orders_R; [assumption|assumption|done_R].
    - intros e H. apply limit_raises in H. destruct H as [->|H]; [left; exact L|right; right; exact H].
    - intros e H. apply offset_raises in H. destruct H as [->|H]; [left; exact L|right; right; exact H].
    - unfold set_out. destruct (negb _); [|apply only_ok]. intros e H. injection H as <-. left; exact L.
    - apply only_ok.
    - apply only_ok.
  Qed.
  Lemma keys_filter : forall t e, keys_raise (filter truthy [t]) e -> keys_raise [t] e.
  Proof. intros t e K. cbn [filter] in K. destruct (truthy t); [exact K|]. destruct K as [items [A _]]. discriminate A. Qed.
  Lemma upd_raises : forall q op, PfCarry.tl_upd KD q -> upd_given KD op -> only (R (upd_irregular E op)) (snd (upd_step (pure_world E) q op)).
  Proof.
    intros [ig tabs vals wh al] op [I1 [I2 I3]] T.
    destruct op; cbn [upd_given upd_step u_tabs u_vals u_where] in *; rewrite ?lift_snd; cbn [snd]; try apply only_ok.
    - apply tables_R; [assumption|now apply one_arg|]. intros e K. now apply keys_filter.
    - apply values_R; [assumption|assumption|done_R].
    - apply where_R; [assumption|assumption|done_R].
    - apply join_R. done_R.
    - apply on_R; [assumption|assumption|done_R].
  Qed.
  Lemma del_raises : forall q op, PfCarry.tl_del KD q -> del_given KD op -> only (R (del_irregular E op)) (snd (del_step (pure_world E) q op)).
  Proof.
    intros [ig tabs refs wh al] op [I1 [I2 I3]] T.
    destruct op; cbn [del_given del_step d_tabs d_refs d_where] in *; rewrite ?lift_snd; cbn [snd]; try apply only_ok.
    - apply tables_R; [assumption|split; [exact T|constructor]|done_R].
    - apply tables_R; [assumption|assumption|done_R].
    - destruct T as [Tt Ta]. apply tables_R; [assumption|apply one_arg, pair_tamed; assumption|]. intros e [items [A _]]. discriminate A.
    - apply where_R; [assumption|assumption|done_R].
    - apply join_R. done_R.
    - apply on_R; [assumption|assumption|done_R].
  Qed.
  Lemma ins_raises : forall q op, PfCarry.tl_ins_all KD q -> ins_given KD op -> only (R (ins_irregular E op)) (snd (ins_step (pure_world E) q op)).
  Proof.
    intros [rp ig tabs rows dup cf upd] op [[I1 I2] [I3 I4]] T.
    destruct op; cbn [ins_given ins_step i_tabs i_rows i_dup i_upd] in *; rewrite ?lift_snd; cbn [snd]; try apply only_ok.
    - apply tables_R; [assumption|now apply one_arg|]. intros e K. now apply keys_filter.
    - unfold rows_add. pose proof (values_R (ins_irregular E (IValues args kwds)) [] args kwds (Forall_nil _) T) as O.
      destruct (values_set _ [] args kwds) as [ps [u|e0]]; [apply only_ok|]. apply O. done_R.
    - unfold ins_irregular. cbn [pure_world w_env]. destruct (e_be E) eqn:B; cbn.
      + apply only_ok.
      + pose proof (values_R (fun e => keys_raise args e) dup args kwds I3 T) as O. destruct (values_set _ dup args kwds) as [ps [u|e0]]; [apply only_ok|]. apply O. done_R.
      + unfold conflict_set. assert (Q : forall st, only (R (keys_raise (List.tl args))) (snd (@pair (insq val) outcome st (Err EInvalidQuery)))).
        { intros st e X. injection X as <-. right; now left. }
        destruct args as [|a rest]; [apply Q|]. destruct a; try apply Q. cbn [snd List.tl].
        assert (T' : args_given KD rest kwds) by (destruct T as [T1 T2]; inversion T1; split; assumption).
        pose proof (values_R (fun e => keys_raise rest e) upd rest kwds I4 T') as O.
        destruct (values_set _ upd rest kwds) as [ps [u|e0]]; [apply only_ok|]. apply O. done_R.
      + destruct args as [|a r]; cbn; [destruct kwds as [|p k]; cbn; [apply only_ok|]|]; intros e X; injection X as <-; right; right; (split; [reflexivity|]); [right|left]; discriminate.
  Qed.
End Raise.

(** ** Programs *)
Lemma choose : forall (P : exn -> Prop), (forall e, P e \/ ~ P e) -> exists f, forall e, f e = true <-> P e.
Proof.
  intros P D.
  assert (X : forall l : list exn, exists g : exn -> bool, forall e, In e l -> (g e = true <-> P e)).
  { induction l as [|e l [g G]]; [exists (fun _ => true); intros e []|].
    assert (Q : forall e1 e2 : exn, {e1 = e2} + {e1 <> e2}) by decide equality.
    destruct (D e) as [Y|N].
    - exists (fun e1 => if Q e1 e then true else g e1). intros e1 I. destruct (Q e1 e) as [->|Z]; [tauto|]. destruct I as [->|I]; [now destruct Z|now apply G].
    - exists (fun e1 => if Q e1 e then false else g e1). intros e1 I. destruct (Q e1 e) as [->|Z]; [split; [discriminate|tauto]|]. destruct I as [->|I]; [now destruct Z|now apply G]. }
  destruct (X [EInvalidArgument; EInvalidQuery; ESqlPuzzle; EConfirmDelete; EConfirmUpdate; ETypeError; EAttributeError; EException; EUnmodelled]) as [g G].
  exists g. intros e. apply G. destruct e; cbn; auto 20.
Qed.
Definition cause (E : env) (args : list val) (e : exn) : Prop := e = EInvalidArgument \/ some_object_raises E args e.
#[local] Instance lets_cause : forall E args, lets (cause E args). Proof. intros. now left. Qed.
Lemma cause_dec : forall E args e, cause E args e \/ ~ cause E args e.
Proof.
  intros E args e. unfold cause. assert (D : {e = EInvalidArgument} + {e <> EInvalidArgument}) by decide equality. destruct D as [D|D]; [left; now left|].
  assert (S : some_object_raises E args e \/ ~ some_object_raises E args e).
  { induction args as [|x args IH]; [right; intros [x [y [[] _]]]|]. destruct IH as [[x' [y [I H]]]|N]; [left; exists x', y; split; [now right|exact H]|].
    destruct (PfFails.within_dec (text E) e x) as [[y [W [S X]]]|M]; [left; exists x, y; split; [now left|auto]|].
    right. intros [x' [y [[<-|I] [W [S X]]]]]; [exact (M y W S X)|apply N; exists x', y; auto]. }
  destruct S; [left; now right|right; tauto].
Qed.
Lemma cause_tamed : forall E args x, In x args -> tamed E (cause E args) x.
Proof.
  intros E args x I. assert (G : forall v, within v x -> tamed E (cause E args) v).
  { intros v. induction v as [v IH] using val_ind_children. intros W. constructor.
    - intros S e X. right. exists x, v. auto.
    - intros T c C. apply IH; [exact C|]. clear -W T C. induction W as [v|v d w Td Id Wd IHd]; [exact (wi_child _ _ _ T C (wi_self c))|].
      exact (wi_child _ _ _ Td Id (IHd T C)). }
  apply G. constructor.
Qed.
Lemma given_args : forall (T : val -> Prop),
  (forall op, Forall T (sel_args op) -> sel_given T op) /\ (forall op, Forall T (upd_args op) -> upd_given T op) /\
  (forall op, Forall T (del_args op) -> del_given T op) /\ (forall op, Forall T (ins_args op) -> ins_given T op).
Proof.
  intros T. assert (A : forall a (k : kwargs), Forall T (a ++ map snd k) -> args_given T a k).
  { intros a k F. apply Forall_app in F. destruct F as [F G]. split; [exact F|]. rewrite Forall_map in G. exact G. }
  assert (O : forall v, Forall T [v] -> T v) by (intros v F; now inversion F).
  assert (B : forall v w, Forall T [v; w] -> T v /\ T w) by (intros v w F; inversion F as [|? ? X F']; inversion F'; auto).
  split; [|split; [|split]]; intros op F; destruct op; cbn [sel_args upd_args del_args ins_args sel_given upd_given del_given ins_given] in *; auto; exact Logic.I.
Qed.
Section Programs.
  Context {Q Op : Type} (args : Op -> list val) (given : (val -> Prop) -> Op -> Prop).
  Hypothesis GA : forall (T : val -> Prop) op, Forall T (args op) -> given T op.
  Lemma all_given : forall E (ops : list Op), Forall (given (tamed E (cause E (flat_map args ops)))) ops.
  Proof.
    intros E ops. apply Forall_forall. intros op I. apply GA, Forall_forall. intros x J. apply cause_tamed.
    apply in_flat_map. eauto.
  Qed.
End Programs.
Lemma raised : forall E ops (I : exn -> Prop) e, R (cause E ops) I e -> invalid e \/ I e \/ some_object_raises E ops e.
Proof. intros E ops I e [[->|S]|[->|H]]; [left; now left|right; now right|left; now right|right; now left]. Qed.
Lemma all_causes : forall E, (forall v, e_pystr E v <> None) -> forall b,
  (forall H op q' e, let args := flat_map sel_args (map snd H ++ [op]) in
     sel_step (pure_world (with_be E b)) (calls sel_step empty_select (program E H)) op = (q', Err e) ->
     invalid e \/ sel_irregular (with_be E b) op e \/ some_object_raises (with_be E b) args e) /\
  (forall H op q' e, let args := flat_map upd_args (map snd H ++ [op]) in
     upd_step (pure_world (with_be E b)) (calls upd_step empty_update (program E H)) op = (q', Err e) ->
     invalid e \/ upd_irregular (with_be E b) op e \/ some_object_raises (with_be E b) args e) /\
  (forall H op q' e, let args := flat_map del_args (map snd H ++ [op]) in
     del_step (pure_world (with_be E b)) (calls del_step empty_delete (program E H)) op = (q', Err e) ->
     invalid e \/ del_irregular (with_be E b) op e \/ some_object_raises (with_be E b) args e) /\
  (forall H op q' e, let args := flat_map ins_args (map snd H ++ [op]) in
     ins_step (pure_world (with_be E b)) (calls ins_step empty_insert (program E H)) op = (q', Err e) ->
     invalid e \/ ins_irregular (with_be E b) op e \/ some_object_raises (with_be E b) args e).
Proof.
  intros E PD b. assert (PD' : forall v, e_pystr (with_be E b) v <> None) by (intros v; exact (PD v)).
  split; [|split; [|split]]; intros H op q' e args S; cbv zeta in *; apply raised; apply (f_equal snd) in S; cbn [snd] in S; revert S;
    destruct (choose (cause (with_be E b) args) (cause_dec _ _)) as [f F].
  - pose proof (all_given sel_args sel_given (fun T => proj1 (given_args T)) (with_be E b) (map snd H ++ [op])) as G. apply Forall_app in G. destruct G as [G1 G2].
    inversion G2 as [|? ? G3 _]; subst. apply (sel_raises (with_be E b) (cause (with_be E b) args) f PD' F); [|exact G3].
    apply (program_keeps _ _ sel_step (PfCarry.tl_sel _) (sel_given (tamed (with_be E b) (cause (with_be E b) args)))); [|exact G1|repeat split; constructor].
    exact (PfCarry.sel_tl _ (td_leaf _ _) (td_child _ _) (td_parts _ _ PD') (td_listed _ _)).
  - pose proof (all_given upd_args upd_given (fun T => proj1 (proj2 (given_args T))) (with_be E b) (map snd H ++ [op])) as G. apply Forall_app in G. destruct G as [G1 G2].
    inversion G2 as [|? ? G3 _]; subst. apply (upd_raises (with_be E b) (cause (with_be E b) args) f PD' F); [|exact G3].
    apply (program_keeps _ _ upd_step (PfCarry.tl_upd _) (upd_given (tamed (with_be E b) (cause (with_be E b) args)))); [|exact G1|repeat split; constructor].
    exact (PfCarry.upd_tl _ (td_leaf _ _) (td_child _ _) (td_parts _ _ PD') (td_listed _ _)).
  - pose proof (all_given del_args del_given (fun T => proj1 (proj2 (proj2 (given_args T)))) (with_be E b) (map snd H ++ [op])) as G. apply Forall_app in G. destruct G as [G1 G2].
    inversion G2 as [|? ? G3 _]; subst. apply (del_raises (with_be E b) (cause (with_be E b) args) f PD' F); [|exact G3].
    apply (program_keeps _ _ del_step (PfCarry.tl_del _) (del_given (tamed (with_be E b) (cause (with_be E b) args)))); [|exact G1|repeat split; constructor].
    exact (PfCarry.del_tl _ (td_leaf _ _) (td_child _ _) (td_parts _ _ PD') (td_listed _ _)).
  - pose proof (all_given ins_args ins_given (fun T => proj2 (proj2 (proj2 (given_args T)))) (with_be E b) (map snd H ++ [op])) as G. apply Forall_app in G. destruct G as [G1 G2].
    inversion G2 as [|? ? G3 _]; subst. apply (ins_raises (with_be E b) (cause (with_be E b) args) f PD' F); [|exact G3].
    apply (program_keeps _ _ ins_step (PfCarry.tl_ins_all _) (ins_given (tamed (with_be E b) (cause (with_be E b) args)))); [|exact G1|repeat split; constructor].
    exact (PfCarry.ins_tl _ (td_leaf _ _) (td_child _ _) (td_parts _ _ PD')).
Qed.
