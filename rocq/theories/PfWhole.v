(** Proofs for C45: pieces of text that a server reads on their own. *)
From Coq Require Import Lia.
From Verif Require Import Base BaseFacts NumFmt Value Regex Backend Eq Render RenderFacts
  SpecLex SpecRef SpecRead RefFacts LiteralFacts PfLiterals PfHistories SpecWhole.
Open Scope N_scope.

Section Pieces.
Context (d : dialect).
Hypothesis Hd : d_ident d = 34 \/ d_ident d = 96.

(** Read on its own, unless a quote follows. *)
Definition piece (x : str) (a : list token) : Prop :=
  forall rest, no_quote_first rest -> tokens d (x ++ rest) = a ++ tokens d rest.
(** Read on its own whatever follows. *)
Definition lead (x : str) : Prop := forall rest, tokens d (x ++ rest) = map TCode x ++ tokens d rest.

Definition plainb (c : chr) : bool :=
  negb ((c =? 39) || (c =? 34) || (c =? 96) || (c =? 35) || (c =? 45) || (c =? 47)).
Definition is_e (c : chr) : bool := (c =? 69) || (c =? 101).
Fixpoint leadb (x : str) : bool :=
  match x with
  | [] => true
  | c :: r => plainb c && (negb (is_e c) || negb (is_nilb r)) && leadb r
  end.

Lemma lex_plain_char : forall c rest, plainb c = true -> (is_e c = true -> starts_with 39 rest = false) ->
  tokens d (c :: rest) = TCode c :: tokens d rest.
Proof.
  intros c rest P E. unfold tokens. cbn [lex]. unfold plainb in P.
  apply negb_true_iff in P. rewrite !orb_false_iff in P. destruct P as [[[[[P1 P2] P3] P4] P5] P6].
  rewrite P1, P2, P4, P5, P6, andb_false_r. cbn [andb].
  replace (c =? d_ident d) with false by (destruct Hd as [-> | ->]; auto).
  destruct (d_eprefix d && ((c =? 69) || (c =? 101)) && starts_with 39 rest) eqn:X; [|reflexivity].
  apply andb_true_iff in X. destruct X as [X1 X2]. apply andb_true_iff in X1. destruct X1 as [_ X1].
  unfold is_e in E. rewrite (E X1) in X2. discriminate.
Qed.
Lemma plain_not_sq : forall c, plainb c = true -> (c =? 39) = false.
Proof.
  intros c P. unfold plainb in P. apply negb_true_iff in P. rewrite !orb_false_iff in P. tauto.
Qed.
Lemma leadb_lead : forall x, leadb x = true -> lead x.
Proof.
  induction x as [|c r IH]; intros H rest; [reflexivity|]. cbn [leadb] in H.
  apply andb_true_iff in H. destruct H as [H H3]. apply andb_true_iff in H. destruct H as [H1 H2].
  cbn [app map]. rewrite lex_plain_char; [now rewrite (IH H3)|exact H1|].
  intros E. rewrite E in H2. destruct r as [|c' r']; [discriminate|]. cbn [app starts_with].
  cbn [leadb] in H3. apply andb_true_iff in H3. destruct H3 as [H3 _]. apply andb_true_iff in H3.
  now apply plain_not_sq.
Qed.
Lemma nqf_sq : forall rest, no_quote_first rest -> starts_with 39 rest = false.
Proof. intros [|c r] H; [reflexivity|]. cbn. apply N.eqb_neq. now apply (H c r). Qed.
Lemma nqf_cons : forall c r, plainb c = true -> no_quote_first (c :: r).
Proof.
  intros c r P c' r' E. injection E as <- _. unfold plainb in P. apply negb_true_iff in P.
  rewrite !orb_false_iff in P. destruct P as [[[[[P1 P2] P3] _] _] _].
  apply N.eqb_neq in P1, P2, P3. auto.
Qed.
Lemma code_piece : forall x, forallb plainb x = true -> piece x (map TCode x).
Proof.
  induction x as [|c r IH]; intros H rest G; [reflexivity|]. cbn [forallb] in H. apply andb_true_iff in H.
  destruct H as [H1 H2]. cbn [app map]. rewrite lex_plain_char; [now rewrite (IH H2)|exact H1|].
  intros _. destruct r as [|c' r']; [now apply nqf_sq|]. cbn in *. apply andb_true_iff in H2. now apply plain_not_sq.
Qed.
Lemma lex_minus : forall w, starts_with 45 w = false -> tokens d (45 :: w) = TCode 45 :: tokens d w.
Proof.
  intros w H. unfold tokens. cbn [lex].
  replace (45 =? d_ident d) with false by (destruct Hd as [-> | ->]; auto).
  rewrite H. change (45 =? 39) with false. change (45 =? 34) with false. change (45 =? 35) with false.
  change (45 =? 47) with false. change ((45 =? 69) || (45 =? 101)) with false.
  now rewrite !andb_false_r.
Qed.
Lemma minus_piece : forall c x a, (c =? 45) = false -> piece (c :: x) a -> piece (45 :: c :: x) (TCode 45 :: a).
Proof.
  intros c x a H P rest G. specialize (P rest G). cbn [app] in *. rewrite lex_minus by exact H.
  now rewrite P.
Qed.

(** ** Pairs of pieces with the same code *)
Definition solid (x : str) : Prop := exists y c, x = y ++ [c] /\ is_space c = false.
Definition twin (x xb : str) (l : list str) : Prop :=
  solid x /\ solid xb /\
  exists a ab, piece x a /\ piece xb ab /\ code a = code ab /\ literals a = l /\ Forall settled a.

Lemma solid_app : forall x y, solid y -> solid (x ++ y).
Proof. intros x y [z [c [-> H]]]. exists (x ++ z), c. now rewrite app_assoc. Qed.
Lemma code_app : forall a b, code (a ++ b) = code a ++ code b.
Proof. intros. unfold code. apply map_app. Qed.
Lemma literals_app : forall a b, literals (a ++ b) = literals a ++ literals b.
Proof. intros. unfold literals. apply flat_map_app. Qed.
Lemma literals_code : forall x, literals (map TCode x) = [].
Proof. induction x; auto. Qed.
Lemma settled_code : forall x, Forall settled (map TCode x).
Proof. induction x; constructor; simpl; auto. Qed.

Lemma piece_mid : forall x a c u y b, piece x a -> leadb (c :: u) = true -> piece y b ->
  piece (x ++ (c :: u) ++ y) (a ++ map TCode (c :: u) ++ b).
Proof.
  intros x a c u y b P L Q rest G. rewrite <- !app_assoc. rewrite P.
  - rewrite (leadb_lead _ L), Q by exact G. reflexivity.
  - apply nqf_cons. cbn [leadb] in L. apply andb_true_iff in L. destruct L as [L _].
    now apply andb_true_iff in L.
Qed.
Lemma piece_lead : forall u y b, leadb u = true -> piece y b -> piece (u ++ y) (map TCode u ++ b).
Proof. intros u y b L Q rest G. rewrite <- !app_assoc. now rewrite (leadb_lead _ L), Q. Qed.
Lemma piece_trail : forall x a c u, piece x a -> forallb plainb (c :: u) = true ->
  piece (x ++ c :: u) (a ++ map TCode (c :: u)).
Proof.
  intros x a c u P L rest G. rewrite <- !app_assoc. rewrite P.
  - now rewrite (code_piece _ L).
  - apply nqf_cons. cbn in L. now apply andb_true_iff in L.
Qed.

Lemma twin_code : forall c u, forallb plainb (c :: u) = true -> is_space (last (c :: u) 0) = false ->
  twin (c :: u) (c :: u) [].
Proof.
  intros c u H L.
  assert (S : solid (c :: u)).
  { exists (removelast (c :: u)), (last (c :: u) 0). split; [|exact L]. now apply app_removelast_last. }
  split; [exact S|]. split; [exact S|]. exists (map TCode (c :: u)), (map TCode (c :: u)).
  pose proof (code_piece _ H). repeat split; auto using literals_code, settled_code.
Qed.
Lemma twin_lead : forall u x xb l, leadb u = true -> twin x xb l -> twin (u ++ x) (u ++ xb) l.
Proof.
  intros u x xb l L [S1 [S2 [a [ab [P [Q [C [X F]]]]]]]].
  split; [now apply solid_app|]. split; [now apply solid_app|].
  exists (map TCode u ++ a), (map TCode u ++ ab).
  repeat split; try (apply piece_lead; assumption).
  - now rewrite !code_app, C.
  - now rewrite literals_app, literals_code, X.
  - apply Forall_app; auto using settled_code.
Qed.
Lemma twin_mid : forall x xb l c u y yb m, twin x xb l -> leadb (c :: u) = true -> twin y yb m ->
  twin (x ++ (c :: u) ++ y) (xb ++ (c :: u) ++ yb) (l ++ m).
Proof.
  intros x xb l c u y yb m [_ [_ [a [ab [P [Q [C [X F]]]]]]]] L [S1 [S2 [a' [ab' [P' [Q' [C' [X' F']]]]]]]].
  split; [rewrite app_assoc; now apply solid_app|]. split; [rewrite app_assoc; now apply solid_app|].
  exists (a ++ map TCode (c :: u) ++ a'), (ab ++ map TCode (c :: u) ++ ab').
  split; [now apply piece_mid|]. split; [now apply piece_mid|]. split.
  - now rewrite !code_app, C, C'.
  - split; [now rewrite !literals_app, literals_code, X, X'|].
    rewrite !Forall_app. auto using settled_code.
Qed.
Lemma twin_trail : forall x xb l c u, twin x xb l -> forallb plainb (c :: u) = true ->
  is_space (last (c :: u) 0) = false -> twin (x ++ c :: u) (xb ++ c :: u) l.
Proof.
  intros x xb l c u [_ [_ [a [ab [P [Q [C [X F]]]]]]]] H L.
  assert (S : solid (c :: u)).
  { exists (removelast (c :: u)), (last (c :: u) 0). split; [|exact L]. now apply app_removelast_last. }
  split; [now apply solid_app|]. split; [now apply solid_app|].
  exists (a ++ map TCode (c :: u)), (ab ++ map TCode (c :: u)).
  split; [now apply piece_trail|]. split; [now apply piece_trail|]. split.
  - now rewrite !code_app, C.
  - split; [rewrite literals_app, literals_code, X; apply app_nil_r|].
    rewrite !Forall_app. auto using settled_code.
Qed.
Lemma twin_paren : forall x xb l, twin x xb l -> twin (paren x) (paren xb) l.
Proof.
  intros x xb l T. unfold paren. apply (twin_lead [c_lp]); [reflexivity|].
  now apply twin_trail.
Qed.

(** A clause: nothing, or a space and a piece. *)
Definition clause (x xb : str) (l : list str) : Prop :=
  (x = [] /\ xb = [] /\ l = []) \/ exists y yb, x = c_sp :: y /\ xb = c_sp :: yb /\ twin y yb l.
Lemma twin_clause : forall x xb l y yb m, twin x xb l -> clause y yb m -> twin (x ++ y) (xb ++ yb) (l ++ m).
Proof.
  intros x xb l y yb m T [[-> [-> ->]]|[z [zb [-> [-> Z]]]]].
  - now rewrite !app_nil_r.
  - now apply (twin_mid x xb l c_sp [] z zb m).
Qed.
Lemma clause_none : clause [] [] [].
Proof. left; auto. Qed.
Lemma clause_some : forall y yb l, twin y yb l -> clause (c_sp :: y) (c_sp :: yb) l.
Proof. intros. right. eauto. Qed.

(** Joined with separators. *)
Inductive twins : list str -> list str -> list (list str) -> Prop :=
| twins_nil : twins [] [] []
| twins_cons : forall x xb l ts tbs ls, twin x xb l -> twins ts tbs ls -> twins (x :: ts) (xb :: tbs) (l :: ls).
Lemma twins_nilb : forall ts tbs ls, twins ts tbs ls -> is_nilb tbs = is_nilb ts.
Proof. intros ts tbs ls []; reflexivity. Qed.
Lemma twin_join : forall c u, leadb (c :: u) = true -> forall ts tbs ls,
  twins ts tbs ls -> is_nilb ts = false -> twin (sjoin (c :: u) ts) (sjoin (c :: u) tbs) (List.concat ls).
Proof.
  intros c u L ts tbs ls T. induction T as [|x xb l ts tbs ls H T IH]; intros NE; [discriminate|].
  destruct T as [|y yb m ts tbs ls H' T].
  - cbn. now rewrite app_nil_r.
  - change (sjoin (c :: u) (x :: y :: ts)) with (x ++ (c :: u) ++ sjoin (c :: u) (y :: ts)).
    change (sjoin (c :: u) (xb :: yb :: tbs)) with (xb ++ (c :: u) ++ sjoin (c :: u) (yb :: tbs)).
    cbn [List.concat]. apply twin_mid; auto.
Qed.

(** ** Renderings with the same code *)
Definition agree (x y : res str) (l : list str) : Prop :=
  forall t, x = Ok t -> exists tb, y = Ok tb /\ twin t tb l.
Definition cagree (x y : res str) (l : list str) : Prop :=
  forall t, x = Ok t -> exists tb, y = Ok tb /\ clause t tb l.

Lemma agree_ok : forall t tb l, twin t tb l -> agree (Ok t) (Ok tb) l.
Proof. intros t tb l T t' E. injection E as <-. eauto. Qed.
Lemma agree_err : forall e y l, agree (Err e) y l.
Proof. intros e y l t E. discriminate. Qed.
Lemma agree_map : forall (F : str -> str) x y l m, agree x y l ->
  (forall t tb, twin t tb l -> twin (F t) (F tb) m) -> agree (do s <- x; Ok (F s)) (do s <- y; Ok (F s)) m.
Proof.
  intros F x y l m A HF t E. destruct x as [s|e]; [|discriminate]. cbn in E. injection E as <-.
  destruct (A s eq_refl) as [tb [-> T]]. cbn. eauto.
Qed.
Lemma agree_map2 : forall (F : str -> str -> str) x y l x' y' l' m, agree x y l -> agree x' y' l' ->
  (forall t tb u ub, twin t tb l -> twin u ub l' -> twin (F t u) (F tb ub) m) ->
  agree (do s <- x; do s' <- x'; Ok (F s s')) (do s <- y; do s' <- y'; Ok (F s s')) m.
Proof.
  intros F x y l x' y' l' m A A' HF t E. destruct x as [s|e]; [|discriminate]. destruct x' as [s'|e]; [|discriminate].
  cbn in E. injection E as <-. destruct (A s eq_refl) as [tb [-> T]]. destruct (A' s' eq_refl) as [tb' [-> T']]. cbn. eauto.
Qed.
Lemma cagree_part : forall i x y l, (i = false -> l = []) -> (i = true -> agree x y l) ->
  cagree (part_ctx i x) (part_ctx i y) l.
Proof.
  intros [] x y l N A t E; unfold part_ctx in *.
  - destruct x as [s|e]; [|discriminate]. cbn in E. injection E as <-.
    destruct (A eq_refl s eq_refl) as [tb [-> T]]. cbn. eexists. split; [reflexivity|]. now apply clause_some.
  - injection E as <-. exists []. rewrite (N eq_refl). auto using clause_none.
Qed.

Lemma mapM_twins : forall A (f : A -> res str) (B : Type) (g : B -> res str) (h : A -> B) (w : A -> list str) l ts,
  (forall x, In x l -> agree (f x) (g (h x)) (w x)) -> mapM f l = Ok ts ->
  exists tbs, mapM g (map h l) = Ok tbs /\ twins ts tbs (map w l).
Proof.
  intros A f B g h w l. induction l as [|x l IH]; intros ts H E.
  - injection E as <-. exists []. split; [reflexivity|constructor].
  - cbn [mapM] in E. destruct (f x) as [t|e] eqn:Ex; [|discriminate]. cbn [bind] in E.
    destruct (mapM f l) as [us|e] eqn:El; [|discriminate]. cbn [bind] in E. injection E as <-.
    destruct (H x (or_introl eq_refl) t Ex) as [tb [Eb T]].
    destruct (IH us (fun y Hy => H y (or_intror Hy)) eq_refl) as [tbs [Ebs Ts]].
    exists (tb :: tbs). cbn [map mapM]. rewrite Eb. cbn [bind]. rewrite Ebs. split; [reflexivity|now constructor].
Qed.
Lemma agree_join : forall A (f : A -> res str) (B : Type) (g : B -> res str) (h : A -> B) (w : A -> list str) l c u,
  leadb (c :: u) = true -> l <> [] -> (forall x, In x l -> agree (f x) (g (h x)) (w x)) ->
  agree (do ts <- mapM f l; Ok (sjoin (c :: u) ts)) (do ts <- mapM g (map h l); Ok (sjoin (c :: u) ts)) (flat_map w l).
Proof.
  intros A f B g h w l c u L NE H t E. destruct (mapM f l) as [ts|e] eqn:El; [|discriminate]. cbn [bind] in E.
  injection E as <-. destruct (mapM_twins A f B g h w l ts H El) as [tbs [-> T]]. cbn [bind]. eexists. split; [reflexivity|].
  rewrite flat_map_concat_map. apply twin_join; auto. destruct l; [contradiction|]. inversion T. reflexivity.
Qed.
(** QueryParts.__str__ of a non-empty list of parts. *)
Lemma agree_parts : forall A (f : A -> res str) (B : Type) (g : B -> res str) (h : A -> B) (w : A -> list str) l kw def c u,
  leadb (c :: u) = true -> kw = [] \/ twin kw kw [] -> l <> [] ->
  (forall x, In x l -> agree (f x) (g (h x)) (w x)) ->
  agree (do ts <- mapM f l; Ok (parts_str kw def (c :: u) ts))
        (do ts <- mapM g (map h l); Ok (parts_str kw def (c :: u) ts)) (flat_map w l).
Proof.
  intros A f B g h w l kw def c u L K NE H t E. destruct (mapM f l) as [ts|e] eqn:El; [|discriminate]. cbn [bind] in E.
  injection E as <-. destruct (mapM_twins A f B g h w l ts H El) as [tbs [-> T]]. cbn [bind]. eexists. split; [reflexivity|].
  rewrite flat_map_concat_map. unfold parts_str. rewrite (twins_nilb _ _ _ T).
  assert (NT : is_nilb ts = false). { destruct l; [contradiction|]. now inversion T. }
  rewrite NT. pose proof (twin_join c u L _ _ _ T NT) as J. destruct K as [->|K]; [exact J|].
  destruct kw as [|k kw]; [exact J|]. cbn [is_nilb].
  exact (twin_mid _ _ [] c_sp [] _ _ _ K eq_refl J).
Qed.
Lemma bind_clause : forall x y l k k' m, cagree x y l ->
  (forall t tb, clause t tb l -> agree (k t) (k' tb) m) -> agree (bind x k) (bind y k') m.
Proof.
  intros x y l k k' m A K t E. destruct x as [s|e]; [|discriminate]. cbn [bind] in E.
  destruct (A s eq_refl) as [tb [-> T]]. cbn [bind]. exact (K s tb T t E).
Qed.
Lemma bind_agree : forall x y l k k' m, agree x y l ->
  (forall t tb, twin t tb l -> agree (k t) (k' tb) m) -> agree (bind x k) (bind y k') m.
Proof.
  intros x y l k k' m A K t E. destruct x as [s|e]; [|discriminate]. cbn [bind] in E.
  destruct (A s eq_refl) as [tb [-> T]]. cbn [bind]. exact (K s tb T t E).
Qed.
Lemma strip_solid : forall c x, is_space c = false -> solid (c :: x) -> strip (c :: x) = c :: x.
Proof.
  intros c x Hc [y [e [H He]]]. rewrite H. unfold strip. destruct y as [|c' y].
  - cbn in *. injection H as -> _. rewrite He. unfold rstrip. cbn. now rewrite He.
  - cbn [app] in *. injection H as <- _. rewrite lstrip_nonspace by exact Hc.
    change (c :: y ++ [e]) with ((c :: y) ++ [e]). now apply rstrip_last.
Qed.
Lemma twin_strip : forall c x xb l, is_space c = false -> twin (c :: x) (c :: xb) l ->
  twin (strip (c :: x)) (strip (c :: xb)) l.
Proof. intros c x xb l H [S1 [S2 X]]. rewrite !strip_solid by assumption. split; [exact S1|]. split; [exact S2|exact X]. Qed.
End Pieces.
