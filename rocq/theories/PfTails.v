(** Proofs for C63 and C64: the clauses of the operands of a union, the options of INTO OUTFILE. *)
From Coq Require Import Lia Permutation.
From Verif Require Import Base BaseFacts NumFmt Value Regex Backend Eq Render RenderFacts ParseArgs Build Queries History
  SpecLex SpecRef SpecRead SpecLogic SpecConds BoolFacts PfBool RefFacts LiteralFacts PfLiterals PfHistories SpecWhole PfWhole PfWholeText
  PfWholeClauses PfStatements SpecClauses PfClauses SpecSql SpecServer PfSql PfSqlParse PfSqlCond PfSqlClauses PfSqlStmt
  SpecNested SpecSays SpecTails PfNestRead PfNestQuery PfNestText PfNestVals PfNestAll.
Open Scope N_scope.

Lemma Forall2_length : forall A B (P : A -> B -> Prop) l m, Forall2 P l m -> List.length l = List.length m.
Proof. intros A B P l m F. induction F; cbn; congruence. Qed.
Section Read.
Context (px : parser nexpr) (pq : parser nquery).
Definition end_out_open := [XWord (lit "FIELDS"); XWord (lit "LINES"); XSym 46].
Lemma out_reads_open : forall lx x lf f ll l, reads px dot lx x ->
  clause_of [lit "FIELDS"; lit "TERMINATED"; lit "BY"] (p_fields px) (XWord (lit "OPTIONALLY") :: dot) lf f ->
  clause_of [lit "LINES"; lit "TERMINATED"; lit "BY"] px dot ll l -> f = None \/ l <> None ->
  reads (p_out px) end_out_open (lx ++ lf ++ ll) (NOut x f l).
Proof.
  intros lx x lf f ll l [NE R] Cf Cl D. split; [destruct lx; [contradiction|discriminate]|]. intros rest S. unfold p_out. rewrite <- !app_assoc.
  assert (S2 : stops [XWord (lit "FIELDS"); XSym 46] (ll ++ rest)).
  { destruct Cl as [[-> _]|[body [v [-> _]]]]; cbn [app map]; [|cbn; intuition discriminate].
    eapply stops_incl; [|exact S]. intros z; cbn; tauto. }
  assert (S1 : stops dot (lf ++ ll ++ rest)).
  { destruct Cf as [[-> _]|[body [v [-> _]]]]; cbn [app map]; [|cbn; intuition discriminate].
    eapply stops_incl; [|exact S2]. intros z; cbn; tauto. }
  rewrite R by exact S1.
  assert (Q : p_clause [lit "FIELDS"; lit "TERMINATED"; lit "BY"] (p_fields px) (lf ++ ll ++ rest) = Some (f, ll ++ rest)).
  { destruct D as [-> |D].
    - destruct Cf as [[-> _]|[body [v [_ [Z _]]]]]; [|discriminate Z]. cbn [app].
      apply (clause_reads _ _ _ _ [XWord (lit "FIELDS"); XSym 46] [] None _ (clause_none_of _ _ _ _)); [exact S2|]. eapply stops_incl; [|exact S2]. intros z; cbn; tauto.
    - apply (clause_reads _ _ _ _ _ _ _ _ Cf).
      + destruct Cl as [[_ Z]|[body [v [-> _]]]]; [contradiction|]. cbn [app map]. cbn. intuition discriminate.
      + eapply stops_incl; [|exact S2]. intros z; cbn; tauto. }
  rewrite Q. rewrite (clause_reads _ _ _ _ _ _ _ _ Cl); [reflexivity| |]; (eapply stops_incl; [|exact S]); intros z; cbn; tauto.
Qed.
(** A query that is followed by a word it cannot continue with. *)
Lemma query_then : forall w bad lc c lss us lo oo l1 a1 l2 a2 lx ox (fu : bool),
  In w [lit "UNION"; lit "OPTIONALLY"] -> avoids [lit "FOR"; w] bad && negb (existsb closing bad) = true ->
  creads px pq lc c -> Forall2 (fun l u => exists a ls c, l = union_lexemes a ls /\ u = (a, c) /\ creads px pq ls c) lss us ->
  clause_of [lit "ORDER"; lit "BY"] (p_list (p_ordered px)) (XSym 44 :: end_ordered) lo oo ->
  clause_of [lit "LIMIT"] p_int [] l1 a1 -> clause_of [lit "OFFSET"] p_int [] l2 a2 ->
  clause_of [lit "INTO"; lit "OUTFILE"] (p_out px) bad lx ox ->
  lo ++ l1 ++ l2 ++ lx ++ lock_lexemes fu <> [] ->
  forall rest, p_query px pq ((lc ++ List.concat lss ++ lo ++ l1 ++ l2 ++ lx ++ lock_lexemes fu) ++ XWord w :: rest)
    = Some (NQuery c us (or_nil oo) a1 a2 ox fu, XWord w :: rest).
Proof.
  intros w bad lc c lss us lo oo l1 a1 l2 a2 lx ox fu W AV [_ Rc] F Co C1 C2 Cx NE rest'. set (rest := XWord w :: rest').
  assert (S0 : ends [w] rest) by (left; apply starts_word; now left).
  assert (Sf : starts [lit "FOR"] (lock_lexemes fu)) by (destruct fu; [apply starts_word; now left|now left]).
  pose proof (ends_app _ _ _ _ Sf S0) as S6.
  pose proof (ends_app _ _ _ _ (clause_starts _ _ _ _ _ _ _ Cx) S6) as S5.
  pose proof (ends_app _ _ _ _ (clause_starts _ _ _ _ _ _ _ C2) S5) as S4.
  pose proof (ends_app _ _ _ _ (clause_starts _ _ _ _ _ _ _ C1) S4) as S3.
  assert (S2 : ends after_unions (lo ++ l1 ++ l2 ++ lx ++ lock_lexemes fu ++ rest)).
  { pose proof (starts_app _ _ _ _ (clause_starts _ _ _ _ _ _ _ Co) (starts_app _ _ _ _ (clause_starts _ _ _ _ _ _ _ C1)
      (starts_app _ _ _ _ (clause_starts _ _ _ _ _ _ _ C2) (starts_app _ _ _ _ (clause_starts _ _ _ _ _ _ _ Cx) Sf)))) as S.
    cbn [app] in S. destruct S as [S|[v [u [S I]]]]; [contradiction|]. left.
    replace (lo ++ l1 ++ l2 ++ lx ++ lock_lexemes fu ++ rest) with ((lo ++ l1 ++ l2 ++ lx ++ lock_lexemes fu) ++ rest) by now rewrite <- !app_assoc.
    rewrite S. cbn [app]. apply starts_word. exact I. }
  assert (Su : starts [lit "UNION"] (List.concat lss)).
  { inversion F as [|? ? ? ? [a' [ls' [c' [-> _]]]]]; [now left|]. cbn [List.concat]. unfold union_lexemes. cbn [app].
    apply starts_word. now left. }
  pose proof (ends_app _ _ _ _ Su S2) as S1.
  unfold p_query. rewrite <- !app_assoc.
  rewrite Rc by (eapply ends_incl; [|exact S1]; intros z; cbn; tauto).
  assert (U : forall r, ends after_unions r -> p_unions px pq (List.length (List.concat lss ++ r)) (List.concat lss ++ r) = Some (us, r)).
  { intros r Sr. apply unions_read; [exact F| |exact Sr]. rewrite app_length.
    assert (G : forall l, Forall2 (fun l u => exists a ls c, l = union_lexemes a ls /\ u = (a, c) /\ creads px pq ls c) l us -> (List.length l <= List.length (List.concat l))%nat).
    { clear. intros l F. induction F as [|l u lss us [a [ls [c [-> _]]]] F IH]; [auto|]. cbn [List.concat List.length]. rewrite app_length.
      unfold union_lexemes at 1. cbn [List.length]. lia. }
    specialize (G lss F). lia. }
  rewrite U by (eapply ends_incl; [|exact S2]; intros z; cbn; tauto).
  assert (Q : p_clause [lit "INTO"; lit "OUTFILE"] (p_out px) (lx ++ lock_lexemes fu ++ rest) = Some (ox, lock_lexemes fu ++ rest)).
  { apply (clause_reads _ _ _ _ _ _ _ _ Cx); [exact (ends_stops _ _ _ S6 AV)|]. destruct W as [<-|[<-|[]]]; (eapply ends_stops; [exact S6|reflexivity]). }
  assert (R : p_clause [lit "ORDER"; lit "BY"] (p_list (p_ordered px)) (lo ++ l1 ++ l2 ++ lx ++ lock_lexemes fu ++ rest) = Some (oo, l1 ++ l2 ++ lx ++ lock_lexemes fu ++ rest) /\
    p_clause [lit "LIMIT"] p_int (l1 ++ l2 ++ lx ++ lock_lexemes fu ++ rest) = Some (a1, l2 ++ lx ++ lock_lexemes fu ++ rest) /\
    p_clause [lit "OFFSET"] p_int (l2 ++ lx ++ lock_lexemes fu ++ rest) = Some (a2, lx ++ lock_lexemes fu ++ rest) /\
    p_flag [lit "FOR"; lit "UPDATE"] (lock_lexemes fu ++ rest) = Some (fu, rest)).
  { clear -W Co C1 C2 S0 S3 S4 S5. destruct W as [<-|[<-|[]]].
    all: split; [apply (clause_reads _ _ _ _ _ _ _ _ Co); (eapply ends_stops; [exact S3|reflexivity])|].
    all: split; [apply (clause_reads _ _ _ _ _ _ _ _ C1); (eapply ends_stops; [exact S4|reflexivity])|].
    all: split; [apply (clause_reads _ _ _ _ _ _ _ _ C2); (eapply ends_stops; [exact S5|reflexivity])|].
    all: apply (flag_reads (lit "FOR") [lit "UPDATE"] fu rest); eapply ends_stops; [exact S0|reflexivity]. }
  destruct R as [R1 [R2 [R3 R4]]]. rewrite R1, R2, R3, Q, R4. reflexivity.
Qed.
End Read.

Section Tails.
Context (E : env).
Notation b := (e_be E).
Notation d := (dialect_of b).
Notation tells := (tells d).
Notation part := (part d).
Notation Hd := (ident_34_96 E).
Notation r := (text E).
Notation Mid := (tells_mid d Hd).
Notation Lead := (tells_lead d Hd).
Notation good := (all_good E).

(** The text of a SELECT in pieces. *)
Lemma select_parts : forall q c ord xx lx, core_said E q c -> Forall2 (ordering E) (s_order q) ord ->
  part_ctx (out_set (s_out q)) (out_str E r (s_out q)) = Ok xx -> part xx lx ->
  exists t lc lo oo l1 l2, r (VSelect q) = Ok t /\ tells t (lc ++ lo ++ l1 ++ l2 ++ lx ++ lock_lexemes (s_forupd q)) /\
    (exists u, lc = XWord (lit "SELECT") :: u) /\ or_nil oo = ord /\
    clause_of [lit "LIMIT"] p_int [] l1 (l_limit (s_limit q)) /\ clause_of [lit "OFFSET"] p_int [] l2 (l_offset (s_limit q)) /\
    (s_order q = [] -> lo = []) /\ (lo = [] -> s_order q = []) /\
    forall n m, (List.length (lc ++ lo) <= n)%nat -> (List.length (lc ++ lo) <= S m)%nat ->
      creads (fst (nested n)) (snd (nested m)) lc c /\
      clause_of [lit "ORDER"; lit "BY"] (p_list (p_ordered (fst (nested n)))) (XSym 44 :: end_ordered) lo oo.
Proof.
  intros q c ord xx lx Co Or Xx Px.
  destruct (core_said_ok E q c (fun y _ => good y) Co) as [x [ls [T [St [R B]]]]].
  assert (Go : Forall (fun p => PfNestVals.good E (fst p)) (s_order q)) by (apply Forall_forall; intros p _; apply good).
  destruct (orders_said E (s_order q) ord (lit "ORDER BY") (lit "ORDER") [lit "BY"] Go Or ltac:(split; reflexivity) ltac:(discriminate)) as [xo [lo [oo [Xo [Po [Ko Oo]]]]]].
  pose proof (part_ctx_ok (limit_set (s_limit q)) (limit_str (s_limit q))) as Xl.
  destruct (limit_part E (s_limit q) _ Xl) as [l1 [l2 [Pl [K1 K2]]]].
  pose proof (part_ctx_ok (s_forupd q) (lit "FOR UPDATE")) as Xf.
  set (xl := if limit_set (s_limit q) then c_sp :: limit_str (s_limit q) else []) in *.
  set (xf := if s_forupd q then c_sp :: lit "FOR UPDATE" else []) in *.
  assert (Pf : part xf (lock_lexemes (s_forupd q))).
  { subst xf. destruct (s_forupd q); [|apply part_none]. apply part_some.
    exact (Mid _ _ c_sp [] [] _ _ (word_tells E (lit "FOR") eq_refl) eq_refl (ltac:(split; reflexivity)) (word_tells E (lit "UPDATE") eq_refl)). }
  pose proof (tells_parts E [xo; xl; xx; xf] [lo; l1 ++ l2; lx; lock_lexemes (s_forupd q)]
    ltac:(repeat (constructor; [assumption|]); constructor) _ _ T) as Q. cbn [List.concat] in Q. rewrite !app_nil_r in Q.
  exists ((lit "SELECT" ++ x) ++ xo ++ xl ++ xx ++ xf), ls, lo, oo, l1, l2.
  split; [|split; [|split; [exact St|split; [exact Oo|split; [exact K1|split; [exact K2|split; [|split]]]]]]].
  - rewrite text_unfold. cbn [str_body]. rewrite (B xo xl xx xf Xo Xl Xx Xf). f_equal.
    rewrite <- app_assoc in *. exact (stripped E _ _ Q).
  - rewrite <- !app_assoc in Q. rewrite <- !app_assoc. exact Q.
  - intros N. rewrite N in Or. inversion Or; subst ord. destruct Ko as [[-> _]|[body [y [-> [-> Rd]]]]]; [reflexivity|]. exfalso.
    rewrite N in Xo. cbn in Xo. injection Xo as <-. destruct Po as [[_ Z]|[z [Z _]]]; discriminate Z.
  - intros ->. destruct Ko as [[_ ->]|[body [y [Z _]]]]; [|discriminate Z]. cbn [or_nil] in Oo. subst ord. now inversion Or.
  - intros n m L1 L2. rewrite app_length in *. split; [apply R; lia|]. apply (clause_at _ _ _ _ _ _ n m Ko); lia.
Qed.
Lemma union_text : forall t x y tx ty lx ly, r x = Ok tx -> r y = Ok ty -> tells tx lx -> tells ty ly ->
  exists s, r (VUnion t x y) = Ok s /\ tells s (lx ++ union_lexemes (is_all t) ly).
Proof.
  intros t x y tx ty lx ly X Y Tx Ty. eexists. split; [rewrite text_unfold; cbn [str_body]; rewrite X, Y; reflexivity|].
  destruct t.
  - exact (Mid _ _ c_sp (lit "UNION ") [XWord (lit "UNION")] _ _ Tx eq_refl (ltac:(split; reflexivity)) Ty).
  - exact (Mid _ _ c_sp (lit "UNION ALL ") [XWord (lit "UNION"); XWord (lit "ALL")] _ _ Tx eq_refl (ltac:(split; reflexivity)) Ty).
Qed.
(** One operand, in pieces. *)
Definition piece (n : nat) (nq : nquery) (L lc T : list lexeme) : Prop :=
  exists c lo oo l1 a1 l2 a2 lx ox fu, nq = NQuery c [] (or_nil oo) a1 a2 ox fu /\ L = lc ++ T /\
    T = lo ++ l1 ++ l2 ++ lx ++ lock_lexemes fu /\
    (T = [] -> no_clauses nq = true) /\ (no_clauses nq = true -> T = []) /\
    creads (fst (nested n)) (snd (nested n)) lc c /\
    clause_of [lit "ORDER"; lit "BY"] (p_list (p_ordered (fst (nested n)))) (XSym 44 :: end_ordered) lo oo /\
    clause_of [lit "LIMIT"] p_int [] l1 a1 /\ clause_of [lit "OFFSET"] p_int [] l2 a2 /\
    clause_of [lit "INTO"; lit "OUTFILE"] (p_out (fst (nested n))) end_out lx ox.
Definition operand_said (q : selq val) (nq : nquery) (L : list lexeme) : Prop :=
  exists t, r (VSelect q) = Ok t /\ tells t L /\ (exists u, L = XWord (lit "SELECT") :: u) /\
    forall n, (List.length L <= n)%nat -> exists lc T, piece n nq L lc T.
Lemma nilled : forall A (x y : list A), x ++ y = [] -> x = [] /\ y = [].
Proof. intros A x y H. now apply app_eq_nil. Qed.
Lemma clause_nil : forall A kws (p : parser A) bad o, kws <> [] -> clause_of kws p bad [] o -> o = None.
Proof. intros A kws p bad o N [[_ ->]|[body [y [H _]]]]; [reflexivity|]. destruct kws; [contradiction|discriminate H]. Qed.
Lemma clause_nil' : forall A kws (p : parser A) bad l, clause_of kws p bad l None -> l = [].
Proof. intros A kws p bad l [[-> _]|[body [y [_ [H _]]]]]; [reflexivity|discriminate H]. Qed.
Lemma operand_ok : forall q nq, query E (VSelect q) nq -> exists L, operand_said q nq L.
Proof.
  intros q nq H. inversion H as [q0 c ord out Co Or Ou|]; subst.
  destruct (out_said_ok E (s_out q) out (fun v _ => good v) Ou) as [xx [lx [Xx [Px Kx]]]].
  destruct (select_parts q c ord xx lx Co Or Xx Px) as [t [lc [lo [oo [l1 [l2 [Y [Ty [Sy [Oo [K1 [K2 [N1 [N2 R]]]]]]]]]]]]]].
  exists (lc ++ lo ++ l1 ++ l2 ++ lx ++ lock_lexemes (s_forupd q)), t. split; [exact Y|]. split; [exact Ty|].
  split; [destruct Sy as [u ->]; eexists; reflexivity|]. intros n Ln. rewrite !app_length in Ln.
  destruct (R n n) as [R1 R2]; [rewrite app_length; lia|rewrite app_length; lia|].
  assert (R3 : clause_of [lit "INTO"; lit "OUTFILE"] (p_out (fst (nested n))) end_out lx out) by (apply (clause_at _ _ _ _ _ _ n n Kx); lia).
  exists lc, (lo ++ l1 ++ l2 ++ lx ++ lock_lexemes (s_forupd q)), c, lo, oo, l1, (l_limit (s_limit q)), l2, (l_offset (s_limit q)), lx, out, (s_forupd q).
  split; [now rewrite Oo|]. split; [reflexivity|]. split; [reflexivity|].
  split; [|split; [|split; [exact R1|split; [exact R2|split; [exact K1|split; [exact K2|exact R3]]]]]].
  - intros N. apply nilled in N. destruct N as [Z1 N]. apply nilled in N. destruct N as [Z2 N]. apply nilled in N. destruct N as [Z3 N]. apply nilled in N. destruct N as [Z4 Z5].
    subst lo l1 l2 lx. apply clause_nil in K1; [|discriminate]. apply clause_nil in K2; [|discriminate]. apply clause_nil in R3; [|discriminate].
    rewrite K1, K2, R3. specialize (N2 eq_refl). rewrite N2 in Or. inversion Or; subst ord. destruct (s_forupd q); [discriminate Z5|reflexivity].
  - unfold no_clauses. intros N. destruct ord as [|o ord]; [|discriminate N]. destruct (l_limit (s_limit q)); [discriminate N|]. destruct (l_offset (s_limit q)); [discriminate N|].
    destruct out; [discriminate N|]. destruct (s_forupd q); [discriminate N|]. apply clause_nil' in K1, K2, R3. subst l1 l2 lx.
    rewrite N1; [reflexivity|]. now inversion Or.
Qed.
Definition unions (l : list (bool * list lexeme)) : list lexeme := List.concat (map (fun p => union_lexemes (fst p) (snd p)) l).
Lemma operands_text : forall x q l, operands x q l -> forall n0 ns L0 Ls, operand_said q n0 L0 -> Forall2 (fun p nL => operand_said (snd p) (fst nL) (snd nL)) l (List.combine ns Ls) ->
  List.length ns = List.length Ls ->
  exists s, r x = Ok s /\ tells s (L0 ++ unions (List.combine (map (fun p => is_all (fst p)) l) Ls)).
Proof.
  intros x q l O. induction O as [q|t x y q l q' l' O1 IH1 O2 IH2]; intros n0 ns L0 Ls S0 F LE.
  - destruct S0 as [s [X [T _]]]. exists s. split; [exact X|]. cbn. now rewrite app_nil_r.
  - apply Forall2_app_inv_l in F. destruct F as [c1 [c2 [F1 [F2 EC]]]].
    inversion F2 as [|? [n1 L1] ? c3 S1 F3]; subst. clear F2. cbn [fst snd] in S1.
    assert (SP : exists ns1 ns2 Ls1 Ls2, ns = ns1 ++ n1 :: ns2 /\ Ls = Ls1 ++ L1 :: Ls2 /\ c1 = List.combine ns1 Ls1 /\ c3 = List.combine ns2 Ls2 /\ List.length ns1 = List.length Ls1 /\ List.length ns2 = List.length Ls2).
    { clear -EC LE. revert ns Ls EC LE. induction c1 as [|[n L] c1 IH]; intros [|n' ns] [|L' Ls] EC LE; try discriminate; cbn [List.combine app] in EC.
      - injection EC as -> -> EC. exists [], ns, [], Ls. cbn [List.length] in LE. repeat split; auto.
      - injection EC as -> -> EC. cbn [List.length] in LE. destruct (IH ns Ls EC ltac:(lia)) as [ns1 [ns2 [Ls1 [Ls2 [-> [-> [-> [-> [A B]]]]]]]]].
        exists (n :: ns1), ns2, (L :: Ls1), Ls2. cbn [List.combine List.length app]. repeat split; auto. }
    destruct SP as [ns1 [ns2 [Ls1 [Ls2 [-> [-> [-> [-> [A B]]]]]]]]].
    destruct (IH1 n0 ns1 L0 Ls1 S0 F1 A) as [s1 [X1 T1]]. destruct (IH2 n1 ns2 L1 Ls2 S1 F3 B) as [s2 [X2 T2]].
    destruct (union_text t x y s1 s2 _ _ X1 X2 T1 T2) as [s [X T]]. exists s. split; [exact X|].
    assert (LL : List.length (map (fun p : uniont * selq val => is_all (fst p)) l) = List.length Ls1).
    { rewrite map_length. apply Forall2_length in F1. rewrite combine_length in F1. lia. }
    rewrite map_app. cbn [map fst].
    assert (CA : forall (a c : list bool) (b' d' : list (list lexeme)), List.length a = List.length b' -> List.combine (a ++ c) (b' ++ d') = List.combine a b' ++ List.combine c d').
    { clear. induction a as [|x a IH]; intros c [|y b'] d' Le; try discriminate; cbn [app List.combine]; [reflexivity|]. rewrite IH; [reflexivity|]. cbn in Le. lia. }
    rewrite CA by exact LL. cbn [List.combine]. unfold unions in *. rewrite map_app, concat_app. cbn [map List.concat fst snd].
    unfold union_lexemes in *. cbn [app] in *. rewrite <- !app_assoc in *. cbn [app] in *. rewrite <- ?app_assoc in *. exact T.
Qed.
(** Reading the operands one after the other. *)
Fixpoint outcome (c : ncore) (us : list (bool * ncore)) (cur : nquery) (l : list (bool * nquery)) : option nquery :=
  match l with
  | [] => match cur with NQuery _ _ ord lim off out fu => Some (NQuery c us ord lim off out fu) end
  | (a, n) :: l' => if no_clauses cur then outcome c (us ++ [(a, core_of n)]) n l' else None
  end.
Lemma operands_read : forall n l Ls, Forall2 (fun p L => exists lc T, piece n (snd p) L lc T) l Ls ->
  forall lc c lss us cur L' lc' T, creads (fst (nested n)) (snd (nested n)) lc c -> unions_at n n lss us -> piece n cur L' lc' T ->
  match p_query (fst (nested n)) (snd (nested n)) (lc ++ List.concat lss ++ T ++ unions (List.combine (map fst l) Ls)) with
  | Some (q, []) => outcome c us cur l = Some q
  | _ => outcome c us cur l = None
  end.
Proof.
  intros n l Ls F. induction F as [|[a m] L l Ls [lc1 [T1 P1]] F IH]; intros lc c lss us cur L' lc' T Rc U P; try (cbn [snd] in P1).
  - destruct P as [c' [lo [oo [l1 [a1 [l2 [a2 [lx [ox [fu [-> [_ [ET [_ [_ [_ [C1 [C2 [C3 C4]]]]]]]]]]]]]]]]]]].
    cbn [map List.combine unions]. unfold unions. cbn [map List.concat]. rewrite app_nil_r. subst T.
    pose proof (query_reads _ _ lc c lss us lo oo l1 a1 l2 a2 lx ox fu Rc U C1 C2 C3 C4 [] ltac:(left; left; reflexivity)) as Q. rewrite app_nil_r in Q. rewrite Q. reflexivity.
  - cbn [outcome map fst List.combine]. unfold unions. cbn [map List.concat fst snd]. fold (unions (List.combine (map fst l) Ls)).
    destruct (no_clauses cur) eqn:NC.
    + assert (TN : T = []) by (destruct P as [c' [lo [oo [l1 [a1 [l2 [a2 [lx [ox [fu [_ [_ [_ [_ [Z _]]]]]]]]]]]]]]]; auto). subst T. cbn [app].
      assert (LE : L = lc1 ++ T1) by (destruct P1 as [c' [lo [oo [l1 [a1 [l2 [a2 [lx [ox [fu [_ [Z _]]]]]]]]]]]]; exact Z).
      assert (R1 : creads (fst (nested n)) (snd (nested n)) lc1 (core_of m)) by (destruct P1 as [c' [lo [oo [l1 [a1 [l2 [a2 [lx [ox [fu [-> [_ [_ [_ [_ [Z _]]]]]]]]]]]]]]]]; exact Z).
      specialize (IH lc c (lss ++ [union_lexemes a lc1]) (us ++ [(a, core_of m)]) m L lc1 T1 Rc).
      rewrite concat_app in IH. cbn [List.concat] in IH. rewrite app_nil_r in IH. rewrite <- app_assoc in IH. subst L.
      replace (List.concat lss ++ union_lexemes a (lc1 ++ T1) ++ unions (List.combine (map fst l) Ls))
        with (List.concat lss ++ union_lexemes a lc1 ++ T1 ++ unions (List.combine (map fst l) Ls)).
      * apply IH; [|exact P1]. apply Forall2_app; [exact U|]. constructor; [|constructor]. eauto 6.
      * unfold union_lexemes. cbn [app]. now rewrite <- !app_assoc.
    + destruct P as [c' [lo [oo [l1 [a1 [l2 [a2 [lx [ox [fu [Q1 [_ [ET [Q2 [_ [_ [C1 [C2 [C3 C4]]]]]]]]]]]]]]]]]]].
      assert (NE : T <> []) by (intros Z; rewrite (Q2 Z) in NC; discriminate NC). subst T.
      pose proof (query_then _ _ (lit "UNION") end_out lc c lss us lo oo l1 a1 l2 a2 lx ox fu (or_introl eq_refl) eq_refl Rc U C1 C2 C3 C4 NE
        ((if a then [XWord (lit "ALL")] else []) ++ L ++ unions (List.combine (map fst l) Ls))) as Q.
      unfold union_lexemes. cbn [app]. rewrite <- !app_assoc in *. rewrite Q. reflexivity.
Qed.
Lemma outcome_joined : forall l c us cur, outcome c us cur l =
  if forallb no_clauses (removelast (cur :: map snd l))
  then match last (map snd l) cur with NQuery _ _ ord lim off out fu => Some (NQuery c (us ++ map (fun p => (fst p, core_of (snd p))) l) ord lim off out fu) end
  else None.
Proof.
  induction l as [|[a n] l IH]; intros c us cur.
  - cbn. destruct cur. now rewrite app_nil_r.
  - cbn [outcome map snd fst]. rewrite IH. change (removelast (cur :: n :: map snd l)) with (cur :: removelast (n :: map snd l)). cbn [forallb].
    destruct (no_clauses cur); [|reflexivity]. cbn [andb]. destruct (forallb _ _); [|reflexivity].
    replace (last (n :: map snd l) cur) with (last (map snd l) n).
    + destruct (last (map snd l) n). now rewrite <- app_assoc.
    + clear. destruct (map snd l) as [|m k] eqn:X; [reflexivity|]. cbn [last]. clear. revert m n cur. induction k as [|y k IH]; intros m n cur; [reflexivity|]. cbn [last]. apply IH.
Qed.
Lemma union_read : forall x q l n0 ns, operands x q l -> query E (VSelect q) n0 -> Forall2 (fun p n => query E (VSelect (snd p)) n) l ns ->
  exists s, r x = Ok s /\
    read_statement d s = if forallb no_clauses (removelast (n0 :: ns)) then Some (NSelect (joined n0 (List.combine (map (fun p => is_all (fst p)) l) ns))) else None.
Proof.
  intros x q l n0 ns O Q0 F. destruct (operand_ok q n0 Q0) as [L0 S0].
  assert (SL : exists Ls, Forall2 (fun p nL => operand_said (snd p) (fst nL) (snd nL)) l (List.combine ns Ls) /\ List.length ns = List.length Ls).
  { clear -F. induction F as [|p n l ns Q F [Ls [IH LE]]]; [exists []; split; [constructor|reflexivity]|]. destruct (operand_ok _ _ Q) as [L S].
    exists (L :: Ls). split; [constructor; [exact S|exact IH]|]. cbn [List.length]. now rewrite LE. }
  destruct SL as [Ls [SL LE]]. destruct (operands_text x q l O n0 ns L0 Ls S0 SL LE) as [s [X T]]. exists s. split; [exact X|].
  unfold read_statement. rewrite (tells_lexemes d _ _ T). match goal with |- context [p_nstatement _ _ ?l] => set (LL := l) end. set (n := List.length LL).
  set (bs := map (fun p => is_all (fst p)) l) in *.
  assert (LB : List.length bs = List.length ns) by (subst bs; rewrite map_length; apply (Forall2_length _ _ _ _ _ F)).
  assert (B : (List.length L0 <= n)%nat /\ forall L, In L Ls -> (List.length L <= n)%nat).
  { subst n LL. rewrite app_length. split; [lia|]. intros L I. rewrite LE in LB. clearbody bs. clear -I LB.
    assert (Z : (List.length L <= List.length (unions (List.combine bs Ls)))%nat); [|lia].
    revert bs LB. induction Ls as [|L1 Ls IH]; intros [|a bs] LB; try discriminate; [destruct I|]. cbn [List.combine]. unfold unions. cbn [map List.concat fst snd].
    rewrite app_length. fold (unions (List.combine bs Ls)). unfold union_lexemes. cbn [List.length]. rewrite app_length. destruct I as [-> |I]; [lia|].
    cbn [List.length] in LB. specialize (IH I bs ltac:(lia)). lia. }
  clearbody n. destruct B as [B0 B]. destruct S0 as [t0 [_ [_ [[u U] P0]]]]. destruct (P0 n B0) as [lc [T0 P1]].
  assert (PL : Forall2 (fun p L => exists lc T, piece n (snd p) L lc T) (List.combine bs ns) Ls).
  { subst bs. clear -SL LE B F. revert Ls SL LE B. induction F as [|p m l ns Q F IH]; intros [|L Ls] SL LE B; try discriminate; cbn [map List.combine]; [constructor|].
    cbn [List.combine] in SL. inversion SL as [|? ? ? ? S1 S2]; subst. constructor.
    - destruct S1 as [t [_ [_ [_ S1]]]]. apply S1, B. now left.
    - apply IH; [exact S2|cbn in LE; lia|]. intros L' I. apply B. now right. }
  assert (R0 : creads (fst (nested n)) (snd (nested n)) lc (core_of n0)) by (destruct P1 as [c' [lo [oo [l1 [a1 [l2 [a2 [lx [ox [fu [-> [_ [_ [_ [_ [Z _]]]]]]]]]]]]]]]]; exact Z).
  pose proof (operands_read n _ _ PL lc (core_of n0) [] [] n0 L0 lc T0 R0 ltac:(constructor) P1) as R. cbn [List.concat app] in R.
  assert (MF : map fst (List.combine bs ns) = bs) by (clear -LB; clearbody bs; revert ns LB; induction bs as [|a bs IH]; intros [|m ns] LB; try discriminate; [reflexivity|]; cbn; f_equal; apply IH; cbn in LB; lia).
  assert (MS : map snd (List.combine bs ns) = ns) by (clear -LB; clearbody bs; revert ns LB; induction bs as [|a bs IH]; intros [|m ns] LB; try discriminate; [reflexivity|]; cbn; f_equal; apply IH; cbn in LB; lia).
  rewrite MF in R. rewrite outcome_joined, MS in R. cbn [app] in R.
  assert (EL : LL = lc ++ T0 ++ unions (List.combine bs Ls)).
  { subst LL. destruct P1 as [c' [lo [oo [l1 [a1 [l2 [a2 [lx [ox [fu [_ [Z _]]]]]]]]]]]]. rewrite Z. now rewrite <- app_assoc. }
  rewrite <- EL in R. unfold joined. rewrite MS.
  assert (ST : exists v, LL = XWord (lit "SELECT") :: v) by (subst LL; rewrite U; eexists; reflexivity). destruct ST as [v ST].
  assert (PS : p_nstatement (fst (nested n)) (snd (nested n)) LL = let? (q, r) := p_query (fst (nested n)) (snd (nested n)) LL in Some (NSelect q, r)).
  { rewrite ST. unfold p_nstatement. now rewrite seqb_refl. }
  rewrite PS. clear PS ST EL. clearbody LL.
  destruct (p_query (fst (nested n)) (snd (nested n)) LL) as [[q1 [|z rest]]|]; destruct (forallb no_clauses (removelast (n0 :: ns))); try discriminate R; try reflexivity;
    destruct (last ns n0); try discriminate R; injection R as <-; reflexivity.
Qed.

(** INTO OUTFILE with any options. *)
Lemma out_refused : forall f f' fl fl' ln ln' e e', values E f f' -> given_said E fl fl' -> given_said E ln ln' -> values E e e' -> fl = None \/ ln <> None ->
  exists x l1 l2 y, part_ctx true (out_str E r (MkOutfile (Some f) fl ln (Some e))) = Ok x /\
    part x (l1 ++ XWord (lit "OPTIONALLY") :: l2) /\ clause_in [lit "INTO"; lit "OUTFILE"] an_out end_out_open l1 (Some y).
Proof.
  intros f f' fl fl' ln ln' e e' V Fl Ln Ve D.
  destruct (values_said E f f' (good f) V) as [ft [lf [Xf [Tf Sf]]]].
  destruct (given_said_ok E ln ln' (lit "LINES TERMINATED BY ") (lit "LINES") [lit "TERMINATED"; lit "BY"] (fun v _ => good v) Ln ltac:(split; reflexivity)) as [xl [ll [Xl [Pl Cl]]]].
  destruct (given_said_ok E (Some e) (Some e') (lit "OPTIONALLY ENCLOSED BY ") (lit "OPTIONALLY") [lit "ENCLOSED"; lit "BY"] (fun v _ => good v) (gs_some E e e' Ve) ltac:(split; reflexivity)) as [xe [le [Xe [Pe Ce]]]].
  assert (LE : exists l2, le = XWord (lit "OPTIONALLY") :: l2).
  { destruct Ce as [[_ Z]|[body [y [-> _]]]]; [discriminate Z|]. eexists. reflexivity. }
  assert (Fd : exists xf lb fo, out_opt E r (lit " FIELDS TERMINATED BY ") fl = Ok xf /\ part xf lb /\
      clause_in [lit "FIELDS"; lit "TERMINATED"; lit "BY"] some_fields (XWord (lit "OPTIONALLY") :: dot) lb fo /\ (fo = None \/ ln' <> None)).
  { inversion Fl as [|g g' Vg]; subst.
    - exists [], [], None. split; [reflexivity|]. split; [apply part_none|]. split; [apply clause_in_none|now left].
    - destruct (values_said E g g' (good g) Vg) as [gt [lg [Xg [Tg Sg]]]].
      exists (lit " FIELDS TERMINATED BY " ++ gt), (map XWord [lit "FIELDS"; lit "TERMINATED"; lit "BY"] ++ lg), (Some (g', None)).
      cbn [out_opt]. rewrite Xg. split; [reflexivity|]. split; [|split].
      + apply (part_some d (lit "FIELDS TERMINATED BY " ++ gt)). apply Lead; [split; reflexivity|exact Tg].
      + apply clause_in_some. intros n m L1 L2. rewrite <- (app_nil_r lg). apply fields_read; [apply xreads_at; [exact Sg|lia]|apply clause_none_of].
      + right. destruct D as [D|D]; [discriminate D|]. inversion Ln; subst; [now contradict D|discriminate]. }
  destruct Fd as [xf [lb [fo [Q1 [Pf [Cf D']]]]]]. destruct LE as [l2 LE].
  exists (c_sp :: lit "INTO OUTFILE " ++ ft ++ xf ++ xl ++ xe), (map XWord [lit "INTO"; lit "OUTFILE"] ++ lf ++ lb ++ ll), l2, (NOut f' fo ln').
  split; [|split].
  - unfold out_str. cbn [part_ctx o_file o_fields o_lines o_encl out_opt]. cbn [out_opt] in Xe. rewrite Xf. cbn [bind]. rewrite Q1. cbn [bind].
    change (out_opt E r (lit " LINES TERMINATED BY ") ln) with (out_opt E r (c_sp :: lit "LINES TERMINATED BY ") ln). rewrite Xl. cbn [bind].
    change (lit " OPTIONALLY ENCLOSED BY ") with (c_sp :: lit "OPTIONALLY ENCLOSED BY "). rewrite Xe. reflexivity.
  - rewrite <- LE. apply part_some. pose proof (tells_part d Hd _ _ _ _ Tf (part_app E _ _ _ _ Pf (part_app E _ _ _ _ Pl Pe))) as Q.
    apply (Lead (lit "INTO OUTFILE ") (map XWord [lit "INTO"; lit "OUTFILE"])) in Q; [|split; reflexivity]. rewrite <- !app_assoc in *. exact Q.
  - apply clause_in_some. intros n m L1 L2. rewrite !app_length in *. apply out_reads_open; [apply xreads_at; [exact Sf|lia]| | |exact D'].
    + apply (clause_at _ _ _ _ _ _ n m Cf); lia.
    + apply (clause_at _ _ _ _ _ _ n m Cl); lia.
Qed.
Lemma outfile_read : forall H c ord f f' fl ln en, let q := calls sel_step empty_select H in let ops := map snd H in
  core_said E q c -> Forall2 (ordering E) (s_order q) ord ->
  wanted_out OFile ops = Some f -> values E f f' -> given_said E (wanted_out OFields ops) fl -> given_said E (wanted_out OLines ops) ln -> given_said E (wanted_out OEncl ops) en ->
  exists s, r (VSelect q) = Ok s /\
    read_statement d s = if accepted_options (wanted_out OFields ops) (wanted_out OLines ops) (wanted_out OEncl ops)
      then Some (NSelect (NQuery c [] ord (l_limit (s_limit q)) (l_offset (s_limit q)) (Some (NOut f' (option_map (fun x => (x, en)) fl) ln)) (s_forupd q)))
      else None.
Proof.
  intros H c ord f f' fl ln en q ops Co Or WF V Fl Ln En. destruct (out_state H) as [I1 [I2 [I3 I4]]]. fold q ops in I1, I2, I3, I4.
  rewrite WF in I1. rewrite <- I2 in *. rewrite <- I3 in *. rewrite <- I4 in *. clearbody q ops. clear H ops WF I2 I3 I4.
  destruct (accepted_options _ _ _) eqn:AC.
  - assert (Os : out_said E (s_out q) (Some (NOut f' (option_map (fun x => (x, en)) fl) ln))).
    { destruct (s_out q) as [of ofl oln oen]. cbn [o_file o_fields o_lines o_encl] in *. subst of. apply os_some; [exact V| |exact Ln|].
      - destruct ofl as [g|]; inversion Fl as [|? ? Vg]; subst; cbn [option_map]; [now apply fd_some|]. destruct oen as [e|]; [discriminate AC|]. apply fd_none.
      - destruct oen as [e|]; [|now left]. destruct ofl; [|discriminate AC]. destruct oln; [discriminate AC|now right]. }
    assert (Q : query E (VSelect q) (NQuery c [] ord (l_limit (s_limit q)) (l_offset (s_limit q)) (Some (NOut f' (option_map (fun x => (x, en)) fl) ln)) (s_forupd q))) by (now apply qu_select).
    destruct (union_read (VSelect q) q [] _ [] (opd_one q) Q ltac:(constructor)) as [s [X R]]. exists s. split; [exact X|]. exact R.
  - destruct (s_out q) as [of ofl oln oen] eqn:SO. cbn [o_file o_fields o_lines o_encl] in *. subst of. destruct oen as [e|]; [|discriminate AC].
    inversion En as [|? e' Ve]; subst.
    assert (D : ofl = None \/ oln <> None) by (destruct ofl; [|now left]; destruct oln; [right; discriminate|discriminate AC]).
    destruct (out_refused f f' ofl fl oln ln e e' V Fl Ln Ve D) as [xx [l1 [l2 [y [Xx [Px Kx]]]]]].
    destruct (select_parts q c ord xx (l1 ++ XWord (lit "OPTIONALLY") :: l2) Co Or) as [t [lc [lo [oo [k1 [k2 [Y [Ty [[u U] [Oo [K1 [K2 [_ [_ R]]]]]]]]]]]]]].
    { rewrite SO. exact Xx. } { exact Px. }
    exists t. split; [exact Y|]. unfold read_statement. rewrite (tells_lexemes d _ _ Ty). match goal with |- context [p_nstatement _ _ ?l] => set (LL := l) end. set (n := List.length LL).
    assert (Ln' : n = (List.length lc + List.length lo + List.length k1 + List.length k2 + List.length l1 + S (List.length l2) + List.length (lock_lexemes (s_forupd q)))%nat).
    { subst n LL. rewrite !app_length. cbn [List.length]. lia. }
    destruct (R n n) as [R1 R2]; [rewrite app_length; lia|rewrite app_length; lia|].
    assert (R3 : clause_of [lit "INTO"; lit "OUTFILE"] (p_out (fst (nested n))) end_out_open l1 (Some y)) by (apply (clause_at _ _ _ _ _ _ n n Kx); lia).
    assert (NE : lo ++ k1 ++ k2 ++ l1 ++ lock_lexemes false <> []).
    { destruct R3 as [[_ Z]|[body [v [-> _]]]]; [discriminate Z|]. intros Z. apply nilled in Z. destruct Z as [_ Z]. apply nilled in Z. destruct Z as [_ Z]. apply nilled in Z. destruct Z as [_ Z]. discriminate Z. }
    pose proof (query_then _ _ (lit "OPTIONALLY") end_out_open lc c [] [] lo oo k1 _ k2 _ l1 _ false (or_intror (or_introl eq_refl)) eq_refl R1 ltac:(constructor) R2 K1 K2 R3 NE
      (l2 ++ lock_lexemes (s_forupd q))) as Q.
    cbn [List.concat lock_lexemes app] in Q. rewrite app_nil_r in Q.
    assert (EL : LL = (lc ++ lo ++ k1 ++ k2 ++ l1) ++ XWord (lit "OPTIONALLY") :: l2 ++ lock_lexemes (s_forupd q)).
    { subst LL. rewrite <- !app_assoc. reflexivity. }
    rewrite <- EL in Q. assert (ST : exists v, LL = XWord (lit "SELECT") :: v) by (subst LL; rewrite U; eexists; reflexivity). destruct ST as [v ST].
    assert (PS : p_nstatement (fst (nested n)) (snd (nested n)) LL = let? (q, r) := p_query (fst (nested n)) (snd (nested n)) LL in Some (NSelect q, r)).
    { rewrite ST. unfold p_nstatement. now rewrite seqb_refl. }
    rewrite PS, Q. reflexivity.
Qed.
End Tails.
