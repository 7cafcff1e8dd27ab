(** Proofs about programs with queries in their conditions, continued: running them (C80). *)
From Coq Require Import Lia.
From Verif Require Import Base BaseFacts NumFmt Value Backend Eq Render RenderFacts ParseArgs Build Queries History
  SpecLex SpecRef SpecRead SpecLogic SpecConds SpecHistory SpecArgs SpecErrors SpecWhole SpecClauses SpecSql SpecServer SpecProgram SpecNested
  PfArgs PfErrors PfAccept PfHistories PfDedupe PfSqlExec PfServer PfProgram PfProgramQ.
From Verif Require SpecSays PfNestStmt.
From Verif Require Import SpecNestRows SpecSub PfSub.
Open Scope N_scope.

(** Induction over everything a user writes. *)
Section Ind.
  Context (P : nexp -> Prop) (V : sval -> Prop) (Q : nsel -> Prop) (R : nwhere -> Prop).
  Context (HP : forall n f l, Forall (fun p => V (snd p)) l -> P (EPairs n f l)) (HA : forall n l, Forall P l -> P (EAll n l))
    (HB : forall o x y, P x -> P y -> P (EBin o x y)) (HE : forall q, Q q -> P (EExists q))
    (HD : forall v, V (SData v)) (HR : forall rk s, V (SRef rk s)) (HS : forall rk q, Q q -> V (SSub rk q))
    (HQ : forall c t al wh, Forall R wh -> Q (NSel c t al wh))
    (HW : forall f l, Forall (fun p => V (snd p)) l -> R (WPairs f l)) (HO : forall l, Forall P l -> R (WObjects l)).
  Fixpoint ind_exp (e : nexp) : P e :=
    match e with
    | EPairs n f l => HP n f l ((fix go l := match l return Forall (fun p => V (snd p)) l with [] => Forall_nil _ | p :: r => Forall_cons p (match p return V (snd p) with (_, v) => ind_val v end) (go r) end) l)
    | EAll n l => HA n l ((fix go l := match l return Forall P l with [] => Forall_nil _ | x :: r => Forall_cons x (ind_exp x) (go r) end) l)
    | EBin o x y => HB o x y (ind_exp x) (ind_exp y)
    | EExists q => HE q (ind_sel q)
    end
  with ind_val (v : sval) : V v :=
    match v with SData x => HD x | SRef rk s => HR rk s | SSub rk q => HS rk q (ind_sel q) end
  with ind_sel (q : nsel) : Q q :=
    match q with NSel c t al wh => HQ c t al wh ((fix go l := match l return Forall R l with [] => Forall_nil _ | x :: r => Forall_cons x (ind_where x) (go r) end) wh) end
  with ind_where (w : nwhere) : R w :=
    match w with
    | WPairs f l => HW f l ((fix go l := match l return Forall (fun p => V (snd p)) l with [] => Forall_nil _ | p :: r => Forall_cons p (match p return V (snd p) with (_, v) => ind_val v end) (go r) end) l)
    | WObjects l => HO l ((fix go l := match l return Forall P l with [] => Forall_nil _ | x :: r => Forall_cons x (ind_exp x) (go r) end) l)
    end.
End Ind.

Section Run.
  Context (b : backend) (E : env).
  Let EB := with_be E b.
  Let W := pure_world EB.
  Notation seg := name_segments.
  Notation scond := (scond b).
  Notation ssel := (ssel b).

  (** A call of where that adds what [f] says. *)
  Definition adds (a : list val) (k : kwargs) (nonempty : Prop) (f : server -> (path -> str -> bool) -> (str -> bool -> list shown -> literal) -> database -> list scope -> option t3) : Prop :=
    forall ps ts, Forall2 scond ps ts -> exists ps' ts', conds_where W KWhere ps a k = (ps', Ok tt) /\ Forall2 scond ps' ts' /\
      (nonempty \/ ts <> [] -> ts' <> []) /\
      forall sv has total db sc, tests sv has total db sc ts' = both (tests sv has total db sc ts) (f sv has total db sc).
  Definition exp_ok (e : nexp) : Prop := exp_sensible b e ->
    exists x t, exp_run W e = Ok x /\ scond x t /\ (stands_alone e = false -> is_conds x = true) /\
      forall sv has total db sc, test sv has total db sc t = exp_says b sv has total db sc e.
  Definition value_fine (v : sval) : Prop := value_sensible b v ->
    exists x, value_run W v = Ok x /\ forall c, good_name (quote_of b) c -> exists cx t, mk_condition KWhere (VStr c) x = Ok cx /\ scond cx t /\
      forall sv has total db sc, test sv has total db sc t = (let? y := lookup has sc (seg c) in value_says b sv has total db sc y v).
  Definition sel_ok (q : nsel) : Prop := sel_sensible b q ->
    exists x nq, sel_run W q = Ok x /\ ssel x nq /\ forall sv has total db sc, answer sv has total db sc nq = chosen b sv has total db sc q.
  Definition where_fine (w : nwhere) : Prop := where_sensible b w ->
    exists a k, where_run W w = Ok (a, k) /\ adds a k (gives_condition w) (fun sv has total db sc => where_says b sv has total db sc w).
  Definition pair_says sv has total db sc (p : str * sval) : option t3 :=
    let? x := lookup has sc (seg (fst p)) in value_says b sv has total db sc x (snd p).

  Lemma all_forall : forall A (P : A -> Prop) l, all P l -> Forall P l.
  Proof. intros A P l. induction l as [|x l IH]; [constructor|]. intros [X Y]. constructor; auto. Qed.
  Lemma scond_sql : forall x t, scond x t -> is_sql x = true.
  Proof. intros x t []; reflexivity. Qed.
  Lemma ssel_sql : forall x q, ssel x q -> is_sql x = true /\ (forall k, mk_rel k x = Ok (VRel k x)) /\ (forall k, k <> RIn -> k <> RNotIn -> default_rel x = REq).
  Proof. intros x q []. split; [reflexivity|]. split; [intros []; reflexivity|reflexivity]. Qed.
  Lemma condition_made : forall c v x, mk_condition KWhere (VStr c) v = Ok x -> exists rk w, x = VCond KWhere (VStr c) rk w.
  Proof.
    intros c v x H. unfold mk_condition in H. destruct (negb (check_type [Value.TStr] (VStr c))); [discriminate|]. destruct (negb _); [discriminate|].
    destruct (match v with VRel _ _ => Ok v | _ => mk_rel (default_rel v) v end) as [r|]; [|discriminate]. cbn [bind] in H. destruct r; try discriminate H. injection H as <-. eauto.
  Qed.
  Lemma says_sub : forall sv has total db sc x rk q, value_says b sv has total db sc x (SSub rk q) =
    (let? rows := chosen b sv has total db sc q in
     match rk with
     | Some RIn => in_rows sv false x rows
     | Some RNotIn => in_rows sv true x rows
     | _ => let? o := the_operator rk in let? y := scalar_of rows in Some (compare3 (compare sv) o x y)
     end).
  Proof. reflexivity. Qed.
  Lemma test_compare_sub : forall sv has total db sc p o q, test sv has total db sc (TCompare (NColumn p) o (NSub q)) =
    (let? u := lookup has sc p in let? v := (let? rows := answer sv has total db sc q in scalar_of rows) in Some (compare3 (compare sv) o u v)).
  Proof. reflexivity. Qed.
  Lemma test_in_sub : forall sv has total db sc p n q, test sv has total db sc (TInSub (NColumn p) n q) =
    (let? u := lookup has sc p in let? rows := answer sv has total db sc q in in_rows sv n u rows).
  Proof. reflexivity. Qed.
  Lemma data_fine : forall v, value_fine (SData v).
  Proof.
    intros v S. exists v. split; [reflexivity|]. intros c G. destruct (pair_condition b c v G S) as [x [M [X A]]]. exists x.
    destruct (condition_made c v x M) as [rk [w ->]]. destruct X as [c' [rk' [w' [Q [G' C]]]]]. injection Q as <- <- <-.
    exists (data_test b (NColumn (seg c)) rk w). split; [exact M|]. split; [apply sc_one; [exact G|now apply ct_data]|].
    intros sv has total db sc. rewrite (test_data b E) by exact C. destruct (lookup has sc (seg c)) as [y|]; [|reflexivity]. cbn [value_says]. f_equal. exact (A sv (fun _ => y)).
  Qed.
  Lemma ref_fine : forall rk s, value_fine (SRef rk s).
  Proof.
    intros rk s [N C]. change (value_run W (SRef rk s)) with (related rk (VSqlR (VStr s))).
    assert (R : forall k, operator_of k <> None -> mk_rel k (VSqlR (VStr s)) = Ok (VRel k (VSqlR (VStr s)))) by (intros [] H; try reflexivity; now destruct H).
    assert (M : forall c k, operator_of k <> None -> mk_condition KWhere (VStr c) (VRel k (VSqlR (VStr s))) = Ok (VCond KWhere (VStr c) k (VSqlR (VStr s)))) by (intros; reflexivity).
    assert (T : forall k c sv has total db sc, operator_of k <> None -> test sv has total db sc (ref_test (NColumn (seg c)) k s) =
      (let? y := lookup has sc (seg c) in let? o := operator_of k in let? z := lookup has sc (seg s) in Some (compare3 (compare sv) o y z))).
    { intros k c sv has total db sc H. unfold ref_test. destruct (operator_of k) as [o|]; [|congruence]. reflexivity. }
    destruct rk as [k|]; cbn [related comparing] in *.
    - rewrite (R k C). eexists. split; [reflexivity|]. intros c G. rewrite (M c k C). do 2 eexists. split; [reflexivity|]. split; [apply sc_one; [exact G|now apply ct_ref]|].
      intros sv has total db sc. cbn [value_says the_operator]. now apply T.
    - eexists. split; [reflexivity|]. intros c G. exists (VCond KWhere (VStr c) REq (VSqlR (VStr s))). eexists. split; [reflexivity|].
      split; [apply sc_one; [exact G|apply ct_ref; [discriminate|exact N]]|]. intros sv has total db sc. cbn [value_says the_operator]. rewrite T by discriminate. reflexivity.
  Qed.
  Lemma sub_fine : forall rk q, sel_ok q -> value_fine (SSub rk q).
  Proof.
    intros rk q IH S. destruct (IH S) as [x [nq [X [SS A]]]]. change (value_run W (SSub rk q)) with (do x0 <- sel_run W q; related rk x0). rewrite X. cbn [bind].
    assert (T : forall k c sv has total db sc, test sv has total db sc (sub_test (NColumn (seg c)) k nq) =
      (let? y := lookup has sc (seg c) in value_says b sv has total db sc y (SSub (Some k) q))).
    { intros k c sv has total db sc. assert (Z : forall y, value_says b sv has total db sc y (SSub (Some k) q) = (let? rows := answer sv has total db sc nq in
        match k with RIn => in_rows sv false y rows | RNotIn => in_rows sv true y rows
        | _ => let? o := operator_of k in let? z := scalar_of rows in Some (compare3 (compare sv) o y z) end)) by (intros; now rewrite says_sub, <- A).
      transitivity (let? y := lookup has sc (seg c) in let? rows := answer sv has total db sc nq in
        match k with RIn => in_rows sv false y rows | RNotIn => in_rows sv true y rows
        | _ => let? o := operator_of k in let? z := scalar_of rows in Some (compare3 (compare sv) o y z) end);
        [|destruct (lookup has sc (seg c)); [symmetry; apply Z|reflexivity]].
      destruct k; cbn [sub_test operator_of]; rewrite ?test_compare_sub, ?test_in_sub; destruct (lookup has sc (seg c)); try reflexivity;
        destruct (answer sv has total db sc nq); reflexivity. }
    destruct (ssel_sql x nq SS) as [Q1 [Q2 _]].
    assert (M : forall c k, mk_condition KWhere (VStr c) (VRel k x) = Ok (VCond KWhere (VStr c) k x)) by reflexivity.
    destruct rk as [k|]; cbn [related].
    - rewrite Q2. eexists. split; [reflexivity|]. intros c G. rewrite M. do 2 eexists. split; [reflexivity|]. split; [apply sc_one; [exact G|apply ct_sub; exact SS]|]. intros. apply T.
    - eexists. split; [reflexivity|]. intros c G. exists (VCond KWhere (VStr c) REq x). eexists. split; [destruct SS; reflexivity|].
      split; [apply sc_one; [exact G|apply ct_sub; exact SS]|]. intros. rewrite T. destruct (lookup has sc (seg c)); [|reflexivity]. now rewrite !says_sub.
  Qed.
  (** Pairs. *)
  Lemma pairs_fine : forall l, Forall (fun p => value_fine (snd p)) l -> Forall (fun p => good_name (quote_of b) (fst p) /\ value_sensible b (snd p)) l ->
    exists prs, pairs_run (value_run W) l = Ok prs /\ map fst prs = map VStr (map fst l) /\
      forall ps ts, Forall2 scond ps ts -> exists ps' ts',
        foldE (fun s p => commit s (do x <- mk_condition KWhere (fst p) (snd p); append_unique (py_eq EB) s x)) ps prs = (ps', Ok tt) /\ Forall2 scond ps' ts' /\
        (l <> [] \/ ts <> [] -> ts' <> []) /\
        forall sv has total db sc, tests sv has total db sc ts' = both (tests sv has total db sc ts) (every (pair_says sv has total db sc) l).
  Proof.
    induction 1 as [|[c v] l V F IH]; intros S.
    - exists []. split; [reflexivity|]. split; [reflexivity|]. intros ps ts P. exists ps, ts. split; [reflexivity|]. split; [exact P|]. split; [intros [H|H]; [congruence|exact H]|].
      intros. cbn [every]. now rewrite both_unit.
    - inversion S as [|? ? [G SV] S']; subst. destruct (IH S') as [prs [R [N L]]]. destruct (V SV) as [x [X M]]. cbn [fst snd] in *.
      destruct (M c G) as [cx [t [M1 [M2 M3]]]]. exists ((VStr c, x) :: prs). split; [|split].
      + unfold pairs_run in *. cbn [mapM fst snd]. rewrite X. cbn [bind]. now rewrite R.
      + cbn [map fst]. now rewrite N.
      + intros ps ts P. destruct (s_add b E ps ts cx t P M2) as [ps1 [ts1 [A1 [F1 [N1 T1]]]]]. destruct (L ps1 ts1 F1) as [ps' [ts' [A' [F' [N' T']]]]].
        exists ps', ts'. split; [|split; [exact F'|split; [intros _; apply N'; now right|]]].
        * cbn [foldE fst snd]. rewrite M1. cbn [bind]. fold EB in A1. rewrite A1. exact A'.
        * intros sv has total db sc. rewrite T', T1, M3. cbn [every]. symmetry. apply both_assoc.
  Qed.
  Lemma pairs_add : forall form l, Forall (fun p => value_fine (snd p)) l -> faithful form (map fst l) ->
    Forall (fun p => good_name (quote_of b) (fst p) /\ value_sensible b (snd p)) l ->
    exists prs, pairs_run (value_run W) l = Ok prs /\
      adds (fst (form prs)) (snd (form prs)) (l <> []) (fun sv has total db sc => every (pair_says sv has total db sc) l).
  Proof.
    intros form l V FF S. destruct (pairs_fine l V S) as [prs [R [N L]]]. exists prs. split; [exact R|].
    specialize (FF prs N). destruct (form prs) as [a k]. cbn [fst snd]. destruct FF as [K [D P]].
    intros ps ts F. rewrite (where_plainly _ _ _ _ _ D). destruct (parsed_pairs W a k K) as [A _].
    rewrite (A prs P), (foldE_batches _ (fun s c0 v => commit s (do x <- mk_condition KWhere c0 v; append_unique (w_eq W) s x))).
    exact (L ps ts F).
  Qed.
  (** Objects. *)
  Definition object_as (e : nexp) (x : val) : Prop := exists t, scond x t /\ (stands_alone e = false -> is_conds x = true) /\
    forall sv has total db sc, test sv has total db sc t = exp_says b sv has total db sc e.
  Lemma objects_loop : forall l xs ps ts, Forall2 object_as l xs -> Forall2 scond ps ts ->
    exists ps' ts', foldE (fun s x => commit s (append_unique (py_eq EB) s x)) ps xs = (ps', Ok tt) /\ Forall2 scond ps' ts' /\ (l <> [] \/ ts <> [] -> ts' <> []) /\
      forall sv has total db sc, tests sv has total db sc ts' = both (tests sv has total db sc ts) (every (exp_says b sv has total db sc) l).
  Proof.
    intros l xs ps ts H. revert ps ts. induction H as [|e x l xs [t [X [_ S]]] H IH]; intros ps ts F.
    - exists ps, ts. split; [reflexivity|]. split; [exact F|]. split; [intros [Q|Q]; [congruence|exact Q]|]. intros. cbn [every]. now rewrite both_unit.
    - destruct (s_add b E ps ts x t F X) as [ps1 [ts1 [A1 [F1 [N1 T1]]]]]. destruct (IH ps1 ts1 F1) as [ps' [ts' [A' [F' [N' T']]]]].
      exists ps', ts'. split; [|split; [exact F'|split; [intros _; apply N'; now right|]]].
      + cbn [foldE]. fold EB in A1. rewrite A1. exact A'.
      + intros sv has total db sc. rewrite T', T1, S. cbn [every]. symmetry. apply both_assoc.
  Qed.
  Lemma objects_add : forall l xs, side_by_side l -> Forall2 object_as l xs -> adds xs [] True (fun sv has total db sc => every (exp_says b sv has total db sc) l).
  Proof.
    intros l xs [N T] H ps ts F. destruct l as [|e [|e' l]].
    - congruence.
    - inversion H as [|? x ? xs' [t [X [_ S]]] H']; subst. inversion H'; subst. exists (ps ++ [x]), (ts ++ [t]). unfold conds_where. rewrite (scond_sql x t X).
      split; [reflexivity|]. split; [apply Forall2_app; [exact F|constructor; [exact X|constructor]]|]. split; [destruct ts; discriminate|].
      intros sv has total db sc. unfold tests. rewrite every_snoc, S. cbn [every]. now rewrite both_unit.
    - destruct T as [T|T]; [discriminate T|].
      assert (C : forallb is_conds xs = true).
      { clear N F. revert T. induction H as [|u x m ys [t [_ [Q _]]] H IH]; intros T; [reflexivity|]. cbn [forallb]. rewrite (Q (T u (or_introl eq_refl))). cbn [andb].
        apply IH. intros z Z. apply T. now right. }
      destruct (objects_loop _ _ ps ts H F) as [ps' [ts' [A [B [D G]]]]]. exists ps', ts'. split; [|split; [exact B|split; [intros _; apply D; left; discriminate|exact G]]].
      inversion H as [|? x ? xs' _ H']; subst. inversion H' as [|? x' ? xs'' _ _]; subst. unfold conds_where. rewrite C. exact A.
  Qed.
  Lemma exps_run : forall l, Forall exp_ok l -> Forall (exp_sensible b) l -> exists xs, mapM (exp_run W) l = Ok xs /\ Forall2 object_as l xs.
  Proof.
    induction 1 as [|e l X F IH]; intros S; [exists []; split; [reflexivity|constructor]|]. inversion S as [|? ? S1 S2]; subst.
    destruct (X S1) as [x [t [R [C [K M]]]]]. destruct (IH S2) as [xs [R' O]]. exists (x :: xs). cbn [mapM]. rewrite R, R'. split; [reflexivity|]. constructor; [|exact O].
    exists t. auto.
  Qed.
  (** Q(...) and Not(...). *)
  Lemma made_all : forall n a k f, adds a k True f -> exists x t, (if n : bool then mk_Not W a k else mk_Q W a k) = Ok x /\ scond x t /\ (n = false -> is_conds x = true) /\
    forall sv has total db sc, test sv has total db sc t = (let? u := f sv has total db sc in Some (negate_if n u)).
  Proof.
    intros n a k f A. destruct (A [] [] (Forall2_nil _)) as [ps [ts [R [F [N T]]]]]. specialize (N (or_introl Logic.I)). destruct (all_some ts N) as [t AT].
    assert (T' : forall sv has total db sc, test sv has total db sc t = f sv has total db sc).
    { intros. rewrite (test_all _ _ _ _ _ _ _ AT). fold (tests sv has total db sc ts). rewrite T. apply both_unit_l. }
    destruct n; unfold mk_Not, mk_Q; rewrite R.
    - exists (VNot ps), (TNot t). split; [reflexivity|]. split; [now apply sc_not with ts|]. split; [discriminate|]. intros. cbn [test]. fold (test sv has total db sc t). now rewrite T'.
    - exists (VConds ps), t. split; [reflexivity|]. split; [now apply sc_q with ts|]. split; [reflexivity|]. intros. rewrite T'. now destruct (f sv has total db sc).
  Qed.
  Lemma adds_weaken : forall a k (N : Prop) f, N -> adds a k N f -> adds a k True f.
  Proof. intros a k N f H A ps ts F. destruct (A ps ts F) as [ps' [ts' [R [F' [N' T]]]]]. exists ps', ts'. split; [exact R|]. split; [exact F'|]. split; [intros _; apply N'; now left|exact T]. Qed.
  (** Conditions. *)
  Lemma exp_pairs_says : forall sv has total db sc n f l, exp_says b sv has total db sc (EPairs n f l) =
    (let? t := every (pair_says sv has total db sc) l in Some (negate_if n t)).
  Proof. reflexivity. Qed.
  Lemma exp_all_says : forall sv has total db sc n l, exp_says b sv has total db sc (EAll n l) =
    (let? t := every (exp_says b sv has total db sc) l in Some (negate_if n t)).
  Proof. reflexivity. Qed.
  Lemma pairs_ok : forall n f l, Forall (fun p => value_fine (snd p)) l -> exp_ok (EPairs n f l).
  Proof.
    intros n f l V [FF [N S]]. apply all_forall in S. destruct (pairs_add f l V FF S) as [prs [R A]].
    change (exp_run W (EPairs n f l)) with (do ps <- pairs_run (value_run W) l; let (a, k) := f ps in if n then mk_Not W a k else mk_Q W a k).
    rewrite R. cbn [bind]. destruct (f prs) as [a k]. cbn [fst snd] in A. destruct (made_all n a k _ (adds_weaken _ _ _ _ N A)) as [x [t [M [C [K T]]]]].
    exists x, t. split; [exact M|]. split; [exact C|]. split; [exact K|]. intros. now rewrite T, exp_pairs_says.
  Qed.
  Lemma all_ok : forall n l, Forall exp_ok l -> exp_ok (EAll n l).
  Proof.
    intros n l P [SB S]. apply all_forall in S. destruct (exps_run l P S) as [xs [R O]]. pose proof (objects_add l xs SB O) as A.
    change (exp_run W (EAll n l)) with (do xs <- mapM (exp_run W) l; if n then mk_Not W xs [] else mk_Q W xs []). rewrite R. cbn [bind].
    destruct (made_all n xs [] _ A) as [x [t [M [C [K T]]]]]. exists x, t. split; [exact M|]. split; [exact C|]. split; [exact K|]. intros. now rewrite T, exp_all_says.
  Qed.
  Lemma bin_ok : forall o x y, exp_ok x -> exp_ok y -> exp_ok (EBin o x y).
  Proof.
    intros o x y X Y [SX [SY [AX AY]]]. destruct (X SX) as [u [t [RX [CX [KX TX]]]]]. destruct (Y SY) as [v [t' [RY [CY [KY TY]]]]].
    change (exp_run W (EBin o x y)) with (do u <- exp_run W x; do v <- exp_run W y; py_binop o u v). rewrite RX, RY. cbn [bind].
    specialize (KX AX). specialize (KY AY).
    assert (M : py_binop o u v = Ok (VCoC o u v)) by (destruct u; try discriminate KX; destruct v; try discriminate KY; reflexivity). rewrite M.
    destruct o.
    - exists (VCoC OpAnd u v), (and_then t t'). split; [reflexivity|]. split; [now apply sc_and|]. split; [reflexivity|]. intros. rewrite test_and_then, TX, TY. reflexivity.
    - exists (VCoC OpOr u v), (TOr t t'). split; [reflexivity|]. split; [now apply sc_or|]. split; [reflexivity|]. intros.
      change (test sv has total db sc (TOr t t')) with (let? a := test sv has total db sc t in let? c := test sv has total db sc t' in Some (or3 a c)).
      rewrite TX, TY. reflexivity.
  Qed.
  Lemma exists_ok : forall q, sel_ok q -> exp_ok (EExists q).
  Proof.
    intros q Q S. destruct (Q S) as [x [nq [R [SS A]]]]. change (exp_run W (EExists q)) with (do x <- sel_run W q; Ok (VExists x)). rewrite R. cbn [bind].
    exists (VExists x), (TExists nq). split; [reflexivity|]. split; [now apply sc_exists|]. split; [discriminate|]. intros.
    change (test sv has total db sc (TExists nq)) with (let? rows := answer sv has total db sc nq in Some (Some (negb (match rows with [] => true | _ => false end)))).
    rewrite A. reflexivity.
  Qed.
  (** Calls of where. *)
  Lemma where_pairs_fine : forall f l, Forall (fun p => value_fine (snd p)) l -> where_fine (WPairs f l).
  Proof.
    intros f l V [FF S]. apply all_forall in S. destruct (pairs_add f l V FF S) as [prs [R A]]. exists (fst (f prs)), (snd (f prs)). split; [|exact A].
    change (where_run W (WPairs f l)) with (do ps <- pairs_run (value_run W) l; Ok (f ps)). rewrite R. cbn [bind]. now destruct (f prs).
  Qed.
  Lemma where_objects_fine : forall l, Forall exp_ok l -> where_fine (WObjects l).
  Proof.
    intros l P [SB S]. apply all_forall in S. destruct (exps_run l P S) as [xs [R O]]. exists xs, []. split; [|exact (objects_add l xs SB O)].
    change (where_run W (WObjects l)) with (do xs <- mapM (exp_run W) l; Ok (xs, @nil (str * val))). now rewrite R.
  Qed.
  Definition wheres_added (wh : list nwhere) (ws : list (list val * kwargs)) : Prop :=
    Forall2 (fun w a => adds (fst a) (snd a) (gives_condition w) (fun sv has total db sc => where_says b sv has total db sc w)) wh ws.
  Lemma wheres_run : forall wh, Forall where_fine wh -> Forall (where_sensible b) wh -> exists ws, mapM (where_run W) wh = Ok ws /\ wheres_added wh ws.
  Proof.
    induction 1 as [|w wh X F IH]; intros S; [exists []; split; [reflexivity|constructor]|]. inversion S as [|? ? S1 S2]; subst.
    destruct (X S1) as [a [k [R A]]]. destruct (IH S2) as [ws [R' O]]. exists ((a, k) :: ws). cbn [mapM]. rewrite R, R'. split; [reflexivity|]. now constructor.
  Qed.
  (** The where clauses of a query, called through [step]. *)
  Lemma wheres_called : forall Q Op (step : world -> Q -> Op -> Q * outcome) (call : list val * kwargs -> Op) (get : Q -> list val) (put : Q -> list val -> Q),
    (forall q a, step W q (call a) = lift1 (put q) (conds_where W KWhere (get q) (fst a) (snd a))) -> (forall q l, get (put q l) = l) ->
    (forall q l m, put (put q l) m = put q m) -> (forall q, put q (get q) = q) ->
    forall wh ws q ts, wheres_added wh ws -> Forall2 scond (get q) ts ->
    exists ps' ts', run_calls W step q (map call ws) = Ok (put q ps') /\ Forall2 scond ps' ts' /\
      ((exists w, In w wh /\ gives_condition w) \/ ts <> [] -> ts' <> []) /\
      forall sv has total db sc, tests sv has total db sc ts' = both (tests sv has total db sc ts) (every (where_says b sv has total db sc) wh).
  Proof.
    intros Q Op step call get put ST GP PP PG wh ws q ts H. revert q ts. induction H as [|w a wh ws A H IH]; intros q ts F.
    - exists (get q), ts. cbn [map run_calls]. rewrite PG. split; [reflexivity|]. split; [exact F|]. split; [intros [[w [[] _]]|X]; exact X|]. intros. cbn [every]. now rewrite both_unit.
    - destruct (A (get q) ts F) as [ps1 [ts1 [R1 [F1 [N1 T1]]]]]. specialize (IH (put q ps1) ts1). rewrite GP in IH. destruct (IH F1) as [ps' [ts' [R' [F' [N' T']]]]].
      exists ps', ts'. cbn [map run_calls]. rewrite ST, R1. cbn [lift1]. rewrite PP in R'. split; [exact R'|]. split; [exact F'|]. split.
      + intros [[u [[<-|I] X]]|X]; apply N'; [right; apply N1; now left|left; eauto|right; apply N1; now right].
      + intros. rewrite T', T1. cbn [every]. symmetry. apply both_assoc.
  Qed.
  (** Columns and the table. *)
  Definition nm (c : str) : val * val := (VStr c, VNone).
  Lemma names_eq : forall c d, pair_eq (py_eq EB) (nm c) (nm d) = Ok (seqb c d).
  Proof. intros c d. unfold pair_eq, nm. cbn [fst snd]. unfold py_eq. cbn [pyeq]. cbn [bind rand]. now destruct (seqb c d). Qed.
  Lemma names_loop : forall l out, NoDup (out ++ l) ->
    foldE (fun s p => commit s (do x <- mk_column (fst p) (snd p); append_unique (pair_eq (py_eq EB)) s x)) (map nm out) (map nm l) = (map nm (out ++ l), Ok tt).
  Proof.
    induction l as [|c l IH]; intros out N; [cbn; now rewrite app_nil_r|]. cbn [map foldE].
    cbn [fst snd nm]. change (mk_column (VStr c) VNone) with (Ok (nm c)). cbn [bind]. unfold append_unique.
    assert (NI : forall o, ~ In c o -> anyM (fun p => pair_eq (py_eq EB) p (nm c)) (map nm o) = Ok false).
    { induction o as [|d o IHo]; intros I; [reflexivity|]. cbn [map anyM]. rewrite names_eq.
      destruct (seqb d c) eqn:Q; [exfalso; apply I; left; now apply seqb_eq|]. cbn [bind]. apply IHo. intros J. apply I. now right. }
    rewrite NI by (intros J; apply NoDup_remove_2 in N; apply N, in_or_app; now left). cbn [bind commit].
    change (map nm out ++ [nm c]) with (map nm out ++ map nm [c]). rewrite <- map_app.
    replace (out ++ c :: l) with ((out ++ [c]) ++ l) in * by now rewrite <- app_assoc. now apply IH.
  Qed.
  Lemma names_args : forall l, alias_args (map VStr l) [] (map nm l).
  Proof.
    intros l. rewrite <- (app_nil_r (map nm l)). apply SpecArgs.aa_items; [destruct l; discriminate| |].
    - induction l; cbn [map]; [constructor|]; constructor; [right; split; [intros m [M|M]; discriminate M|reflexivity]|assumption].
    - split; constructor.
  Qed.
  Lemma cols_run : forall c, cols_sensible b c -> exists cols cs, columns_add W [] (cols_args c) [] = (cols, Ok tt) /\ cols_as b cols cs /\
    forall has total rows, match cs with
        | [(NCall f d [NColumn p], None)] => show_total has total f d p rows
        | _ => let? ps := plain_columns cs in show_rows has ps rows
        end = match c with
        | CTotal k d c => show_total has total (function_name k) d (seg c) rows
        | CNames [] => show_rows has [seg (lit "*")] rows
        | CNames l => show_rows has (map seg l) rows
        end.
  Proof.
    intros [l|k d c] S.
    - destruct S as [N G]. exists (map nm l). eexists. split; [|split; [apply ca_names; exact G|]].
      + unfold columns_add. cbn [cols_args]. destruct (parsed_names W (map VStr l) []) as [X _]; [split; [constructor|destruct l; discriminate]|].
        rewrite (X _ (names_args l)), (foldE_batches _ (fun s c v => commit s (do x <- mk_column c v; append_unique (pair_eq (py_eq EB)) s x))).
        exact (names_loop l [] N).
      + intros has total rows.
        assert (P : forall m, plain_columns (map (fun c => (NColumn (seg c), None)) m) = Some (map seg m)).
        { induction m as [|c m IH]; [reflexivity|]. unfold plain_columns in *. cbn [map mapO]. now rewrite IH. }
        destruct l as [|c l]; [reflexivity|]. cbn [star_if_none map]. change ((NColumn (seg c), None) :: map (fun c0 => (NColumn (seg c0), None)) l) with (map (fun c0 => (NColumn (seg c0), @None path)) (c :: l)).
        rewrite P. reflexivity.
    - exists [(VAgg k d (VStr c), VNone)]. eexists. split; [|split; [apply ca_total; exact S|reflexivity]].
      destruct c as [|x c]; [destruct S as [_ N]; exfalso; apply N; reflexivity|]. destruct k, d; reflexivity.
  Qed.
  Definition alias_val (al : option str) : val := match al with Some a => VStr a | None => VNone end.
  Lemma from_run : forall t al, good_name (quote_of b) t -> tables_set W [] [from_arg t al] [] = ([MkTable (VStr t) (alias_val al) []], Ok tt).
  Proof. intros t [a|] G; [reflexivity|]. exact (one_table b _ t G). Qed.
  Lemma filterO_ext : forall A (f g : A -> option bool) l, (forall x, f x = g x) -> filterO f l = filterO g l.
  Proof. intros A f g l H. induction l as [|x l IH]; [reflexivity|]. cbn [filterO]. rewrite H. now destruct (g x); [rewrite IH|]. Qed.
  Lemma keeps : forall sv has total db sc ts wh, tests sv has total db sc ts = every (where_says b sv has total db sc) wh ->
    match SpecSays.all_of ts with Some x => test sv has total db sc x | None => Some (Some true) end = every (where_says b sv has total db sc) wh.
  Proof.
    intros sv has total db sc ts wh H. rewrite <- H. destruct ts as [|t ts]; [reflexivity|]. destruct (all_some (t :: ts)) as [u U]; [discriminate|]. rewrite U.
    exact (test_all _ _ _ _ _ _ _ U).
  Qed.
  Lemma select_ok : forall c t al wh, Forall where_fine wh -> sel_ok (NSel c t al wh).
  Proof.
    intros c t al wh F [CS [G [AL S]]]. apply all_forall in S. destruct (wheres_run wh F S) as [ws [R A]]. destruct (cols_run c CS) as [cols [cs [C1 [C2 C3]]]].
    set (q0 := MkSel no_selopts cols [MkTable (VStr t) (alias_val al) []] [] [] [] [] (MkLimits None None) (MkOutfile None None None None) false : selq val).
    destruct (wheres_called _ _ sel_step (fun w => SWhere (fst w) (snd w)) s_where (fun q l => with_where q l)) with (wh := wh) (ws := ws) (q := q0) (ts := @nil ntest)
      as [ps [ts [R1 [F1 [_ T1]]]]]; try reflexivity; [intros []; reflexivity|exact A|constructor|].
    exists (VSelect (with_where q0 ps)).
    assert (AA : alias_as b (alias_val al) (match al with Some a => Some (seg a) | None => None end)) by (destruct al; now constructor).
    exists (NQuery (NCore [] cs [NSource (FName (seg t)) (match al with Some a => Some (seg a) | None => None end) []] (SpecSays.all_of ts) [] None) [] [] None None None false).
    split; [|split; [now apply ss_|]].
    - change (sel_run W (NSel c t al wh)) with (do ws <- mapM (where_run W) wh;
        do s <- run_calls W sel_step empty_select (SColumns (cols_args c) [] :: SFrom [from_arg t al] [] :: map (fun w => SWhere (fst w) (snd w)) ws); Ok (VSelect s)).
      rewrite R. cbn [bind run_calls sel_step]. change (s_cols (empty_select)) with (@nil (val * val)). rewrite C1. unfold lift1 at 1. cbn [fst snd].
      change (s_tabs (with_cols empty_select cols)) with (@nil (table val)). rewrite (from_run t al G). unfold lift1. cbn [fst snd].
      change (with_tabs (with_cols empty_select cols) [MkTable (VStr t) (alias_val al) []]) with q0. rewrite R1. reflexivity.
    - intros sv has total db sc.
      change (answer sv has total db sc (NQuery (NCore [] cs [NSource (FName (seg t)) (match al with Some a => Some (seg a) | None => None end) []] (SpecSays.all_of ts) [] None) [] [] None None None false))
        with (let? rows := rows_of db sc (seg t) (match (match al with Some a => Some (seg a) | None => None end) with Some a => a | None => seg t end)
                (fun s => match SpecSays.all_of ts with Some x => test sv has total db s x | None => Some (Some true) end) in
              match cs with
              | [(NCall f d [NColumn p], None)] => show_total has total f d p rows
              | _ => let? ps := plain_columns cs in show_rows has ps rows
              end).
      change (chosen b sv has total db sc (NSel c t al wh)) with
        (let? rows := rows_of db sc (seg t) (seg (match al with Some a => a | None => t end)) (fun s => every (where_says b sv has total db s) wh) in
         match c with
         | CTotal k d c => show_total has total (function_name k) d (seg c) rows
         | CNames [] => show_rows has [seg (lit "*")] rows
         | CNames l => show_rows has (map seg l) rows
         end).
      assert (K : forall A B (x y : option A) (f g : A -> option B), x = y -> (forall z, f z = g z) -> (let? z := x in f z) = (let? z := y in g z)).
      { intros A0 B x y f g -> H. destruct y; [apply H|reflexivity]. }
      apply K; [|intros rows; apply C3].
      assert (RX : forall n m k k', n = m -> (forall s, k s = k' s) -> rows_of db sc (seg t) n k = rows_of db sc (seg t) m k').
      { intros n m k k' -> H. unfold rows_of. apply filterO_ext. intros s. now rewrite H. }
      apply RX; [now destruct al|]. intros s. apply keeps. rewrite T1. apply both_unit_l.
  Qed.
  Lemma exps : forall e, exp_ok e.
  Proof. exact (ind_exp exp_ok value_fine sel_ok where_fine pairs_ok all_ok bin_ok exists_ok data_fine ref_fine sub_fine select_ok where_pairs_fine where_objects_fine). Qed.
  Lemma sels : forall q, sel_ok q.
  Proof. exact (ind_sel exp_ok value_fine sel_ok where_fine pairs_ok all_ok bin_ok exists_ok data_fine ref_fine sub_fine select_ok where_pairs_fine where_objects_fine). Qed.
  Lemma wheres : forall w, where_fine w.
  Proof. exact (ind_where exp_ok value_fine sel_ok where_fine pairs_ok all_ok bin_ok exists_ok data_fine ref_fine sub_fine select_ok where_pairs_fine where_objects_fine). Qed.
  (** ** Statements *)
  Lemma select_sub : forall q, sel_sensible b q -> exists x s nq, sel_run W q = Ok x /\ text EB x = Ok s /\ read_statement (dialect_of b) s = Some (NSelect nq) /\
    forall sv has total db, returned sv has total db (NSelect nq) = chosen b sv has total db [] q.
  Proof.
    intros q S. destruct (sels q S) as [x [nq [R [SS A]]]]. destruct (PfNestStmt.select_read EB x nq (ssel_said b E x nq SS)) as [s [T RS]].
    exists x, s, nq. split; [exact R|]. split; [exact T|]. split; [exact RS|]. intros. apply A.
  Qed.
  Lemma plain_table_said : forall t, good_name (quote_of b) t -> Forall2 (SpecSays.table_said EB) [MkTable (VStr t) VNone []] [NSource (FName (seg t)) None []].
  Proof. intros t G. constructor; [|constructor]. eapply SpecSays.tbl_; [|apply alias_said, aa_none|apply mg_nil|constructor]. apply SpecSays.fs_name; [exact G|reflexivity]. Qed.
  Lemma where_same : forall sv has total db t ts wh r, (forall sc, tests sv has total db sc ts = every (where_says b sv has total db sc) wh) ->
    where_true sv has total db (seg t) (SpecSays.all_of ts) r = row_matches b sv has total db t wh r.
  Proof.
    intros sv has total db t ts wh r H. unfold where_true, row_matches. pose proof (keeps sv has total db [MkScope (seg t) (seg t) r] ts wh (H _)) as K.
    destruct (SpecSays.all_of ts) as [x|]; rewrite <- K; reflexivity.
  Qed.
  Lemma delete_sub : forall t wh, good_name (quote_of b) t -> Forall (where_sensible b) wh -> (exists w, In w wh /\ gives_condition w) ->
    exists x s st, delete_run W t wh = Ok x /\ text EB x = Ok s /\ read_statement (dialect_of b) s = Some st /\
    forall sv has total db, match changed sv has total db st, rows_left b sv has total db t wh with
      | Some db', Some rows => db' (seg t) = rows /\ forall p, p <> seg t -> db' p = db p
      | None, None => True
      | _, _ => False
      end.
  Proof.
    intros t wh G S N. destruct (wheres_run wh) as [ws [R A]]; [apply Forall_forall; intros w _; apply wheres|exact S|].
    set (q0 := MkDel false [] [MkTable (VStr t) VNone []] [] false : delq val).
    destruct (wheres_called _ _ del_step (fun w => DWhere (fst w) (snd w)) d_where (fun q l => MkDel (d_ignore q) (d_tabs q) (d_refs q) l (d_allow q))) with (wh := wh) (ws := ws) (q := q0) (ts := @nil ntest)
      as [ps [ts [R1 [F1 [N1 T1]]]]]; try (intros []; reflexivity); try reflexivity; [exact A|constructor|].
    specialize (N1 (or_introl N)).
    assert (PS : ps <> []) by (intros ->; inversion F1; congruence).
    destruct (PfNestStmt.statement_read EB (VDelete (MkDel false [] [MkTable (VStr t) VNone []] ps false)) (NDelete false [] [NSource (FName (seg t)) None []] (SpecSays.all_of ts))) as [s [T RS]].
    { apply SpecSays.sm_delete; [now left|discriminate|constructor|now apply plain_table_said|].
      apply clause_as. apply conjoined with (b := b); [exact F1|]. intros x u _. apply scond_said. }
    do 3 eexists. split; [|split; [exact T|split; [exact RS|]]].
    - unfold delete_run. rewrite R. cbn [bind run_calls]. unfold empty_delete. cbn [del_step]. rewrite (from_run t None G : tables_set W [] [VStr t] [] = _). unfold lift1. cbn [fst snd].
      match goal with |- context [run_calls W del_step ?q _] => change q with q0 end. rewrite R1. reflexivity.
    - intros sv has total db. cbn [changed]. unfold rows_left.
      rewrite (filterO_ext _ (fun r => let? k := row_matches b sv has total db t wh r in Some (negb k)) (fun r => let? k := where_true sv has total db (seg t) (SpecSays.all_of ts) r in Some (negb k))).
      + destruct (filterO _ (db (seg t))) as [rows|]; [|exact Logic.I]. split; [apply change_here|intros p; apply change_other].
      + intros r. rewrite (where_same sv has total db t ts wh r); [reflexivity|]. intros sc. rewrite T1. apply both_unit_l.
  Qed.
  Lemma cells_said : forall out, Forall (set_pair b) out -> exists sets, Forall2 (SpecSays.assignment EB) (map the_value out) sets /\
    forall sv has total db sc, mapO (fun a => let? x := value sv has total db sc (snd a) in Some (fst a, x)) sets = Some (map (fun p => (seg (fst p), snd p)) (stores b out)).
  Proof.
    induction 1 as [|[c v] out [[d [C [G N]]] V] F [sets [A B]]]; [exists []; split; [constructor|reflexivity]|]. cbn [fst snd] in *. subst c.
    assert (X : exists l, literal_of b v = Some l /\ SpecSays.values EB v (NLiteral l)).
    { destruct V as [V|[l [-> V]]]; [now apply (data_value b E)|]. eexists. split; [reflexivity|]. apply SpecSays.vl_plain. split; [reflexivity|exact V]. }
    destruct X as [l [L VL]]. exists ((seg d, NLiteral l) :: sets). split.
    - constructor; [|exact A]. apply SpecSays.as_; [exact G|reflexivity|exact VL].
    - intros sv has total db sc. cbn [mapO]. cbn [fst snd]. change (value sv has total db sc (NLiteral l)) with (Some l). rewrite B.
      unfold stores. cbn [flat_map fst snd]. rewrite L. reflexivity.
  Qed.
  Lemma stored : forall out r c, Forall (set_pair b) out ->
    fold_left store (map (fun p => (seg (fst p), snd p)) (stores b out)) r c = match last_for c (stores b out) with Some l => l | None => r c end.
  Proof.
    intros out r c F. rewrite fold_store. rewrite map_map. cbn [fst snd].
    assert (Q : map (fun p : str * literal => (column_of (seg (fst p)), snd p)) (stores b out) = stores b out).
    { induction F as [|[d v] out [[e [C [G N]]] V] F IH]; [reflexivity|]. cbn [fst snd] in *. subst d. unfold stores in *. cbn [flat_map fst snd].
      destruct (literal_of b v); [|exact IH]. cbn [app map fst snd]. rewrite IH, N. reflexivity. }
    now rewrite Q.
  Qed.
  Lemma update_sub : forall t a k ps wh, good_name (quote_of b) t -> set_call b a k ps -> ps <> [] -> none_returns (stores b ps) ->
    Forall (where_sensible b) wh -> (exists w, In w wh /\ gives_condition w) ->
    exists x s st, update_run W t a k wh = Ok x /\ text EB x = Ok s /\ read_statement (dialect_of b) s = Some st /\
    forall sv has total db, match changed sv has total db st, mapO (row_matches b sv has total db t wh) (db (seg t)) with
      | Some db', Some hits => Forall2 (fun old new => new_row b ps (snd old) (fst old) new) (List.combine (db (seg t)) hits) (db' (seg t)) /\
          forall p, p <> seg t -> db' p = db p
      | None, None => True
      | _, _ => False
      end.
  Proof.
    intros t a k prs wh G SC PN NR S N. destruct (wheres_run wh) as [ws [R A]]; [apply Forall_forall; intros w _; apply wheres|exact S|].
    destruct (set_call_effect b EB a k prs [] [] SC (Forall_nil _) dd_nil) as [out [V [FO DO]]]. cbn [app map] in V, DO.
    set (q0 := MkUpd false [MkTable (VStr t) VNone []] (map the_value out) [] false : updq val).
    destruct (wheres_called _ _ upd_step (fun w => UWhere (fst w) (snd w)) u_where (fun q l => MkUpd (u_ignore q) (u_tabs q) (u_vals q) l (u_allow q))) with (wh := wh) (ws := ws) (q := q0) (ts := @nil ntest)
      as [ps [ts [R1 [F1 [N1 T1]]]]]; try (intros []; reflexivity); try reflexivity; [exact A|constructor|].
    specialize (N1 (or_introl N)).
    assert (PS : ps <> []) by (intros ->; inversion F1; congruence).
    assert (FS : Forall (set_pair b) prs) by (destruct SC as [_ [_ [_ P]]]; exact P).
    assert (OUT : out <> []) by (intros ->; apply PN, (stores_nil b prs FS); exact (deduped_nil _ _ DO eq_refl)).
    destruct (cells_said out FO) as [sets [SA SV]].
    destruct (PfNestStmt.statement_read EB (VUpdate (MkUpd false [MkTable (VStr t) VNone []] (map the_value out) ps false))
      (NUpdate false [NSource (FName (seg t)) None []] sets (SpecSays.all_of ts))) as [s [T RS]].
    { apply SpecSays.sm_update; [now left|discriminate|destruct out; [congruence|discriminate]|now apply plain_table_said|exact SA|].
      apply clause_as. apply conjoined with (b := b); [exact F1|]. intros x u _. apply scond_said. }
    do 3 eexists. split; [|split; [exact T|split; [exact RS|]]].
    - unfold update_run. rewrite R. cbn [bind run_calls]. unfold empty_update. cbn [upd_step]. rewrite (from_run t None G : tables_set W [] [VStr t] [] = _). unfold lift1. cbn [fst snd].
      cbn [upd_step]. unfold lift1. match goal with |- context [values_set W ?v a k] => change v with (@nil val) end. change (pure_world EB) with W in V. rewrite V. cbn [fst snd].
      match goal with |- context [run_calls W upd_step ?q _] => change q with q0 end. rewrite R1. reflexivity.
    - intros sv has total db. cbn [changed].
      assert (WS : forall r, where_true sv has total db (seg t) (SpecSays.all_of ts) r = row_matches b sv has total db t wh r).
      { intros r. apply where_same. intros sc. rewrite T1. apply both_unit_l. }
      set (f := fun r => let? k0 := where_true sv has total db (seg t) (SpecSays.all_of ts) r in
          let? xs := mapO (fun a0 => let? x := value sv has total db [MkScope (seg t) (seg t) r] (snd a0) in Some (fst a0, x)) sets in
          Some (if k0 : bool then fold_left store xs r else r)).
      assert (L : forall rows, match mapO f rows, mapO (row_matches b sv has total db t wh) rows with
        | Some new, Some hits => Forall2 (fun old new => new_row b prs (snd old) (fst old) new) (List.combine rows hits) new
        | None, None => True | _, _ => False end).
      { induction rows as [|r rows IH]; [constructor|]. cbn [mapO]. unfold f at 1. rewrite WS, SV.
        destruct (row_matches b sv has total db t wh r) as [h|]; [|exact Logic.I].
        destruct (mapO f rows) as [new|], (mapO (row_matches b sv has total db t wh) rows) as [hits|]; try contradiction; [|exact Logic.I].
        cbn [List.combine]. constructor; [|exact IH]. intros c. cbn [fst snd]. destruct h; [|reflexivity].
        rewrite (stored out r c FO), (deduped_last _ _ DO NR). reflexivity. }
      specialize (L (db (seg t))). fold f. destruct (mapO f (db (seg t))) as [new|]; [|exact L].
      destruct (mapO (row_matches b sv has total db t wh) (db (seg t))) as [hits|]; [|exact L]. split; [rewrite change_here; exact L|intros p; apply change_other].
  Qed.
End Run.
