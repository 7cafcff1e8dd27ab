(** Lemmas: renderings between the calls. *)
From Coq Require Import Lia.
From Verif Require Import Base NumFmt Value Backend Eq Render RenderFacts ParseArgs Build Queries History Effects SpecEffects PfClauses SpecClauses PfEffects.
Open Scope nat_scope.

(** ** Minimising early *)
Definition with_type (ty : jointy) (j : join val) : join val := MkJoin ty (j_name j) (j_alias j) (j_ons j).
(** The same table and conditions; both have an inner join, or all are of one outer kind. *)
Definition group_like (g g' : jgroup) : Prop :=
  same_but_type (fst g) (fst g') /\
  ((existsb is_inner (fst g :: snd g) = true /\ existsb is_inner (fst g' :: snd g') = true) \/
   exists ty, ty <> JInner /\ (forall j, In j (fst g :: snd g) -> j_type j = ty) /\ (forall j, In j (fst g' :: snd g') -> j_type j = ty)).
Lemma inner_false : forall l, existsb is_inner l = false -> forall j, In j l -> j_type j <> JInner.
Proof.
  intros l H j Hj C. apply is_inner_iff in C. assert (X : existsb is_inner l = true) by (apply existsb_exists; eauto). congruence.
Qed.
Lemma settle_inner : forall h t, existsb is_inner (h :: t) = true -> settle_group (h, t) = [with_type JInner h].
Proof.
  intros h t X. unfold settle_group. rewrite X. destruct t as [|j t]; [|reflexivity].
  cbn [is_nilb negb andb]. simpl in X. rewrite orb_false_r in X. apply is_inner_iff in X. destruct h as [th n a o]; simpl in *; subst; reflexivity.
Qed.
Lemma settle_outer : forall ty h t, ty <> JInner -> (forall j, In j (h :: t) -> j_type j = ty) -> settle_group (h, t) = [h].
Proof.
  intros ty h t N K. unfold settle_group.
  assert (X : existsb is_inner (h :: t) = false).
  { destruct (existsb is_inner (h :: t)) eqn:X; [|reflexivity]. apply existsb_exists in X as [x [I X]]. apply is_inner_iff in X. rewrite (K x I) in X. contradiction. }
  rewrite X, andb_false_r. destruct t as [|j t]; [reflexivity|]. cbn [is_nilb negb andb].
  replace (forallb (fun j0 => jointy_eqb (j_type j0) (j_type h)) (h :: j :: t)) with true; [reflexivity|].
  symmetry. apply forallb_forall. intros x Hx. apply jointy_eqb_iff. rewrite (K x Hx), (K h); [reflexivity|now left].
Qed.
Lemma settle_like : forall g g', group_like g g' -> settle_group g = settle_group g'.
Proof.
  intros [h t] [h' t'] [S K]. cbn [fst snd] in *. destruct K as [[K K']|[ty [N [K K']]]].
  - rewrite (settle_inner h t K), (settle_inner h' t' K'). destruct S as [A [B C]]. unfold with_type. now rewrite A, B, C.
  - rewrite (settle_outer ty h t N K), (settle_outer ty h' t' N K'). destruct S as [A [B C]].
    pose proof (K h (or_introl eq_refl)) as T. pose proof (K' h' (or_introl eq_refl)) as T'. destruct h, h'. cbn in *. congruence.
Qed.
Lemma same_join_cong : forall r h h' j, same_but_type h h' -> same_join r h j = same_join r h' j.
Proof. intros r h h' j [A [B C]]. unfold same_join. now rewrite A, B, C. Qed.
Definition heads_in (gs : list jgroup) (S : list (join val)) : Prop := forall g, In g gs -> In (fst g) S.
Lemma group_add_like : forall E S j gs gs', one_outer_kind E S -> In j S -> heads_in gs S -> Forall2 group_like gs gs' ->
  match group_add (text E) j gs, group_add (text E) j gs' with
  | Ok a, Ok b => Forall2 group_like a b /\ heads_in a S
  | Err e, Err e' => e = e'
  | _, _ => False
  end.
Proof.
  intros E S j gs gs' K IJ HI F. induction F as [|[h t] [h' t'] gs gs' L F IH].
  - simpl. split; [|intros g [<-|[]]; exact IJ]. constructor; [|constructor]. split; [repeat split|]. cbn [fst snd].
    destruct (is_inner j) eqn:X; [left; simpl; now rewrite X|]. right. exists (j_type j). split; [|split; intros x [<-|[]]; reflexivity].
    intros C. apply is_inner_iff in C. congruence.
  - cbn [group_add]. assert (B : same_but_type h h') by apply L. rewrite (same_join_cong (text E) h h' j B).
    destruct (same_join (text E) h' j) as [[]|e] eqn:Q; [| |reflexivity].
    + split.
      2:{ intros g [<-|I]; cbn [fst]; [exact (HI (h, t) (or_introl eq_refl))|apply HI; now right]. }
      constructor; [|exact F]. destruct L as [_ L]. cbn [fst snd] in *. split; [exact B|]. cbn [fst snd].
      assert (EX : forall l, existsb is_inner (l ++ [j]) = existsb is_inner l || is_inner j)
        by (intros l; rewrite existsb_app; simpl; now rewrite orb_false_r).
      change (h :: t ++ [j]) with ((h :: t) ++ [j]). change (h' :: t' ++ [j]) with ((h' :: t') ++ [j]). rewrite !EX.
      destruct L as [[L L']|[ty [N [L L']]]]; [left; now rewrite L, L'|].
      destruct (is_inner j) eqn:X; [left; now rewrite !orb_true_r|]. right. exists ty. split; [exact N|].
      assert (TJ : j_type j = ty).
      { rewrite <- (same_join_cong (text E) h h' j B), same_join_equal in Q.
        destruct (K h j (HI (h, t) (or_introl eq_refl)) IJ Q) as [C|[C|C]].
        - rewrite (L h (or_introl eq_refl)) in C. contradiction.
        - apply is_inner_iff in C. congruence.
        - rewrite <- C. apply L. now left. }
      split; intros x Hx; apply in_app_iff in Hx; (destruct Hx as [Hx|[<-|[]]]; [auto|exact TJ]).
    + assert (HI' : heads_in gs S) by (intros g I; apply HI; now right). specialize (IH HI').
      destruct (group_add (text E) j gs), (group_add (text E) j gs'); try contradiction; [|exact IH].
      destruct IH as [IH1 IH2]. split; [now constructor|]. intros g [<-|I]; [exact (HI (h, t) (or_introl eq_refl))|now apply IH2].
Qed.
Lemma group_joins_like : forall E S l gs gs', one_outer_kind E S -> (forall j, In j l -> In j S) -> heads_in gs S -> Forall2 group_like gs gs' ->
  match group_joins (text E) l gs, group_joins (text E) l gs' with
  | Ok a, Ok b => Forall2 group_like a b
  | Err e, Err e' => e = e'
  | _, _ => False
  end.
Proof.
  intros E S. induction l as [|j l IH]; intros gs gs' K L HI F; [exact F|]. cbn [group_joins].
  pose proof (group_add_like E S j gs gs' K (L j (or_introl eq_refl)) HI F) as A.
  destruct (group_add (text E) j gs), (group_add (text E) j gs'); try contradiction; [|exact A]. destruct A as [A1 A2]. apply IH; auto. intros; apply L; now right.
Qed.
Lemma group_joins_app : forall r l m gs, group_joins r (l ++ m) gs = match group_joins r l gs with Ok g => group_joins r m g | Err e => Err e end.
Proof.
  intros r. induction l as [|x l IH]; intros m gs; [reflexivity|]. cbn [app group_joins]. destruct (group_add r x gs); [apply IH|reflexivity].
Qed.
Lemma settle_flat_like : forall a b, Forall2 group_like a b -> flat_map settle_group a = flat_map settle_group b.
Proof. intros a b F. induction F as [|x y a b L F IH]; [reflexivity|]. cbn [flat_map]. now rewrite (settle_like _ _ L), IH. Qed.
(** Grouping the heads of the groups again. *)
Lemma grouped_heads : forall E l gs, grouped E l gs -> one_outer_kind E l ->
  exists gs', grouped E (flat_map settle_group gs) gs' /\ Forall2 group_like gs gs'.
Proof.
  intros E l gs G. induction G as [|j l tw ot gs P G IH]; intros K; [exists []; split; constructor|].
  destruct IH as [gs' [G' F]].
  { intros x y Hx Hy. apply K; right; (eapply parted_sub; [exact P|now right]). }
  destruct (parted_in _ _ _ _ _ P) as [P1 P2].
  assert (B : exists h', settle_group (j, tw) = [h'] /\ same_but_type h' j /\ group_like (j, tw) (h', [])).
  { destruct (existsb is_inner (j :: tw)) eqn:X.
    - exists (with_type JInner j). split; [now apply settle_inner|]. split; [now repeat split|]. split; [now repeat split|]. left. cbn [fst snd]. split; [exact X|reflexivity].
    - assert (TY : forall x, In x (j :: tw) -> j_type x = j_type j).
      { intros x [<-|Hx]; [reflexivity|]. assert (Ix : In x l) by (eapply parted_sub; [exact P|now left]).
        destruct (K j x (or_introl eq_refl) (or_intror Ix) (P1 x Hx)) as [C|[C|C]]; [exfalso|exfalso|now symmetry].
        - exact (inner_false _ X j (or_introl eq_refl) C).
        - exact (inner_false _ X x (or_intror Hx) C). }
      assert (N : j_type j <> JInner) by (apply (inner_false _ X); now left).
      exists j. split; [now apply (settle_outer (j_type j))|]. split; [now repeat split|]. split; [now repeat split|]. right. exists (j_type j). cbn [fst snd].
      split; [exact N|]. split; [exact TY|]. intros x [<-|[]]. reflexivity. }
  destruct B as [h' [Q [S L]]]. exists ((h', []) :: gs'). cbn [flat_map]. rewrite Q. split; [|now constructor].
  cbn [app]. eapply gr_cons; [|exact G'].
  apply (parted_split _ _ [] (flat_map settle_group gs)); [intros ? []|].
  intros x Hx. apply in_flat_map in Hx. destruct Hx as [[h t] [Hg Hx]].
  apply settle_origin in Hx. destruct Hx as [y [Hy Sy]].
  rewrite (join_equal_cong E h' j x y S Sy). apply P2. eapply grouped_members; [exact G|exact Hg|exact Hy].
Qed.
Definition mergeable (E : env) (pre tail : list (join val)) : Prop := pre = [] \/ tail = [] \/ one_outer_kind E (pre ++ tail).
Lemma minimize_early : forall E pre mid tail, minimised E pre mid -> mergeable E pre tail ->
  minimize (text E) (mid ++ tail) = minimize (text E) (pre ++ tail).
Proof.
  intros E pre mid tail [->|M] K; [reflexivity|]. destruct K as [->|[->|K]].
  - injection M as <-. reflexivity.
  - rewrite !app_nil_r, M. eapply minimize_again; eauto.
  - unfold minimize in *. apply bind_ok in M. destruct M as [gs [G M]]. injection M as <-.
    rewrite !group_joins_app, G. apply group_joins_grouped in G.
    destruct (grouped_heads E _ _ G) as [gs' [G' F]]; [intros i j Hi Hj; apply K; rewrite in_app_iff; auto|].
    apply group_joins_grouped in G'. rewrite G'.
    assert (HI : heads_in gs (pre ++ tail)) by (intros g I; apply in_or_app; left; eapply grouped_members; [exact G|exact I|now left]).
    pose proof (group_joins_like E (pre ++ tail) tail gs gs' K (fun j Hj => in_or_app _ _ _ (or_intror Hj)) HI F) as A.
    destruct (group_joins (text E) tail gs), (group_joins (text E) tail gs'); try contradiction; cbn [bind].
    + f_equal. symmetry. eapply settle_flat_like; eauto.
    + now subst.
Qed.

(** ** Tables before and after *)
(** [jl]: no joins are ever added. *)
Definition jrel (E : env) (jl b : bool) (js ms : list (join val)) : Prop := exists pre mid tail,
  js = pre ++ tail /\ ms = mid ++ tail /\ minimised E pre mid /\ (jl = true -> pre = [] \/ tail = []) /\ (b = true -> pre = [] \/ tail <> []).
Definition trel (E : env) (jl b : bool) (t u : table val) : Prop :=
  tb_name u = tb_name t /\ tb_alias u = tb_alias t /\ jrel E jl b (tb_joins t) (tb_joins u).
Inductive tsrel (E : env) (jl b : bool) : list (table val) -> list (table val) -> Prop :=
| tr_nil : tsrel E jl b [] []
| tr_one : forall t u, trel E jl b t u -> tsrel E jl b [t] [u]
| tr_cons : forall t u l m, trel E jl false t u -> tsrel E jl b l m -> l <> [] -> tsrel E jl b (t :: l) (u :: m).
Lemma jrel_refl : forall E jl b js, jrel E jl b js js.
Proof. intros E jl b js. exists [], [], js. repeat split; auto. now left. Qed.
Lemma jrel_weak : forall E jl b js ms, jrel E jl b js ms -> jrel E jl false js ms.
Proof. intros E jl b js ms [pre [mid [tail [A [B [C [D _]]]]]]]. exists pre, mid, tail. repeat split; auto. discriminate. Qed.
Lemma tsrel_refl : forall E jl b l, tsrel E jl b l l.
Proof.
  intros E jl b l. assert (R : forall c t, trel E jl c t t) by (intros; repeat split; apply jrel_refl).
  induction l as [|t l IH]; [constructor|]. destruct l as [|u l]; [now apply tr_one|]. apply tr_cons; [apply R|exact IH|discriminate].
Qed.
Lemma tsrel_weak : forall E jl b l m, tsrel E jl b l m -> tsrel E jl false l m.
Proof.
  intros E jl b l m H. assert (W : forall t u, trel E jl b t u -> trel E jl false t u) by (intros t u [A [B C]]; repeat split; auto; eapply jrel_weak; eauto).
  induction H; [constructor|apply tr_one; auto|apply tr_cons; auto].
Qed.
Lemma tsrel_F2 : forall E jl b l m, tsrel E jl b l m -> Forall2 (trel E jl false) l m.
Proof.
  intros E jl b l m H. apply tsrel_weak in H. induction H; [constructor|constructor; [assumption|constructor]|constructor; assumption].
Qed.
Lemma jrel_nil : forall E jl b js ms, jrel E jl b js ms -> is_nilb ms = is_nilb js.
Proof.
  intros E jl b js ms [pre [mid [tail [-> [-> [[->|M] _]]]]]]; [reflexivity|].
  pose proof (min_nil _ _ _ M) as N. destruct pre, mid; simpl in *; congruence.
Qed.
Lemma table_eq_new : forall (eq : val -> val -> res bool) (t u : table val) (n a : val), tb_name u = tb_name t -> tb_alias u = tb_alias t -> is_nilb (tb_joins u) = is_nilb (tb_joins t) ->
  table_eq eq u (MkTable n a []) = table_eq eq t (MkTable n a []).
Proof.
  intros eq [n a js] [n' a' ms] m b A B C. cbn [tb_name tb_alias tb_joins] in *. subst. cbn [table_eq].
  destruct js, ms; simpl in C; try discriminate; reflexivity.
Qed.
Lemma found_new : forall E jl b (eq : val -> val -> res bool) l m n a, tsrel E jl b l m ->
  anyM (fun p => table_eq eq p (MkTable n a [])) m = anyM (fun p => table_eq eq p (MkTable n a [])) l.
Proof.
  intros E jl b eq l m n a H. apply tsrel_F2 in H. induction H as [|t u l m [A [B C]] F IH]; [reflexivity|]. cbn [anyM].
  rewrite (table_eq_new eq t u n a A B (jrel_nil _ _ _ _ _ C)), IH. reflexivity.
Qed.
Lemma tsrel_snoc : forall E jl b c l m t, tsrel E jl b l m -> tsrel E jl c (l ++ [t]) (m ++ [t]).
Proof.
  intros E jl b c l m t H. apply tsrel_weak in H.
  assert (R : forall c, trel E jl c t t) by (intros; repeat split; apply jrel_refl).
  induction H as [|x y T|x y l m T H IH NE]; [now apply tr_one| |].
  - apply tr_cons; [exact T|now apply tr_one|discriminate].
  - cbn [app]. apply tr_cons; [exact T|exact IH|destruct l; discriminate].
Qed.
Lemma tables_set_rel : forall E jl b W l m a k, tsrel E jl b l m ->
  snd (tables_set W m a k) = snd (tables_set W l a k) /\ tsrel E jl b (fst (tables_set W l a k)) (fst (tables_set W m a k)).
Proof.
  intros E jl b W l m a k H. unfold tables_set. destruct (parse_args W alias_opts (filter truthy a) k) as [items|e]; [|split; [reflexivity|exact H]].
  revert l m H. induction items as [|it items IH]; intros l m H; [split; [reflexivity|exact H]|]. cbn [foldE].
  destruct (nth2 it) as [n al]. destruct (mk_table n al) as [x|e]; cbn [bind commit]; [|split; [reflexivity|exact H]].
  unfold append_unique. rewrite (found_new E jl b (w_eq W) l m _ _ H).
  destruct (anyM _ l) as [[]|e]; cbn [bind commit]; [now apply IH| |split; [reflexivity|exact H]].
  apply IH. now apply (tsrel_snoc E jl b).
Qed.
Lemma upd_last_rel : forall E jl b c f l m, tsrel E jl b l m ->
  (forall t u, trel E jl b t u -> snd (f u) = snd (f t) /\ trel E jl c (fst (f t)) (fst (f u))) ->
  snd (on_last_table f m) = snd (on_last_table f l) /\
  (tsrel E jl c (fst (on_last_table f l)) (fst (on_last_table f m))).
Proof.
  intros E jl b c f l m H HF.
  assert (A : match upd_last f l, upd_last f m with
              | None, None => l = [] /\ m = []
              | Some (l', o), Some (m', o') => o' = o /\ tsrel E jl c l' m' /\ l' <> []
              | _, _ => False
              end).
  { induction H as [|t u T|t u l m T H IH NE]; cbn [upd_last]; [auto| |].
    - destruct (HF t u T) as [A B]. destruct (f t) as [t' o], (f u) as [u' o']. cbn [fst snd] in *. split; [exact A|]. split; [now apply tr_one|discriminate].
    - destruct l as [|x l]; [contradiction|]. destruct m as [|y m]; [inversion H|].
      destruct (upd_last f (x :: l)) as [[l' o]|] eqn:Q1, (upd_last f (y :: m)) as [[m' o']|] eqn:Q2; try contradiction; try (destruct IH as [C _]; discriminate C).
      destruct IH as [-> [B C]]. split; [reflexivity|]. split; [now apply tr_cons|discriminate]. }
  unfold on_last_table. destruct (upd_last f l) as [[l' o]|], (upd_last f m) as [[m' o']|]; try contradiction.
  - destruct A as [-> [B _]]. split; [reflexivity|exact B].
  - destruct A as [-> ->]. split; [reflexivity|constructor].
Qed.
Lemma table_join_rel : forall E b W ty arg t u, trel E false b t u ->
  snd (table_join W ty arg u) = snd (table_join W ty arg t) /\
  trel E false (match snd (table_join W ty arg t) with Ok _ => true | Err _ => b end) (fst (table_join W ty arg t)) (fst (table_join W ty arg u)).
Proof.
  intros E b W ty arg t u T. unfold table_join. destruct (join_target W arg) as [x|e]; cbn [bind commit fst snd]; [|split; [reflexivity|exact T]].
  split; [reflexivity|]. destruct T as [A [B [pre [mid [tail [Q1 [Q2 [M _]]]]]]]]. repeat split; cbn [tb_name tb_alias tb_joins]; auto.
  exists pre, mid, (tail ++ [MkJoin ty (fst x) (snd x) []]). rewrite Q1, Q2, <- !app_assoc. repeat split; auto; [discriminate|].
  intros _. right. destruct tail; discriminate.
Qed.
Lemma tables_join_rel : forall E b W ty l m arg, tsrel E false b l m ->
  snd (tables_join W ty m arg) = snd (tables_join W ty l arg) /\
  tsrel E false (match snd (tables_join W ty l arg) with Ok _ => true | Err _ => b end) (fst (tables_join W ty l arg)) (fst (tables_join W ty m arg)).
Proof.
  intros E b W ty l m arg H.
  assert (G : forall ty, snd (on_last_table (table_join W ty arg) m) = snd (on_last_table (table_join W ty arg) l) /\
     tsrel E false (match snd (on_last_table (table_join W ty arg) l) with Ok _ => true | Err _ => b end)
       (fst (on_last_table (table_join W ty arg) l)) (fst (on_last_table (table_join W ty arg) m))).
  { clear ty. intros ty. destruct (join_target W arg) as [x|e] eqn:JT.
    - assert (O : snd (on_last_table (table_join W ty arg) l) = Ok tt \/ l = []).
      { clear H. unfold on_last_table. assert (X : match upd_last (table_join W ty arg) l with Some (_, o) => o = Ok tt | None => l = [] end).
        { induction l as [|t l IH]; [reflexivity|]. cbn [upd_last]. destruct l as [|t' l].
          - unfold table_join. rewrite JT. reflexivity.
          - destruct (upd_last _ (t' :: l)) as [[l' o]|]; [exact IH|discriminate IH]. }
        destruct (upd_last _ l) as [[l' o]|]; auto. }
      destruct O as [O| ->].
      + rewrite O. destruct (upd_last_rel E false b true (table_join W ty arg) l m H) as [A B].
        { intros t u T. destruct (table_join_rel E b W ty arg t u T) as [C D]. split; [exact C|].
          unfold table_join in D at 1. rewrite JT in D. exact D. }
        split; [now rewrite A|exact B].
      + inversion H; subst. split; [reflexivity|constructor].
    - assert (O : exists e', snd (on_last_table (table_join W ty arg) l) = Err e').
      { unfold on_last_table. assert (X : match upd_last (table_join W ty arg) l with Some (_, o) => o = Err e | None => True end).
        { clear H. induction l as [|t l IH]; [exact I|]. cbn [upd_last]. destruct l as [|t' l].
          - unfold table_join. rewrite JT. reflexivity.
          - destruct (upd_last _ (t' :: l)) as [[l' o]|]; [exact IH|exact I]. }
        destruct (upd_last _ l) as [[l' o]|]; [rewrite X|]; simpl; eauto. }
      destruct O as [e' O]. rewrite O. destruct (upd_last_rel E false b b (table_join W ty arg) l m H) as [A B].
      { intros t u T. destruct (table_join_rel E b W ty arg t u T) as [C D]. split; [exact C|].
        unfold table_join in D at 1. rewrite JT in D. exact D. }
      split; [now rewrite A|exact B]. }
  unfold tables_join. destruct ty; try apply G. destruct (supports_full_join (e_be (w_env W))); [apply G|]. split; [reflexivity|exact H].
Qed.
Lemma upd_last_app : forall A B (f : A -> A * B) l m, m <> [] -> upd_last f (l ++ m) =
  match upd_last f m with Some (m', b) => Some (l ++ m', b) | None => None end.
Proof.
  intros A B f l m N. induction l as [|x l IH]; [cbn [app]; destruct (upd_last f m) as [[m' b]|]; reflexivity|].
  cbn [app upd_last]. destruct (l ++ m) as [|y r] eqn:Q; [destruct l; [cbn in Q; congruence|discriminate]|]. rewrite IH.
  destruct (upd_last f m) as [[m' b]|]; reflexivity.
Qed.
Lemma upd_last_nonnil : forall A B (f : A -> A * B) l l' b, upd_last f l = Some (l', b) -> l' <> [].
Proof.
  intros A B f [|x l] l' b H; [discriminate|]. cbn [upd_last] in H. destruct l as [|y l].
  - destruct (f x). injection H as <- <-. discriminate.
  - destruct (upd_last f (y :: l)) as [[r c]|]; [|discriminate]. injection H as <- <-. discriminate.
Qed.
Lemma table_on_rel : forall E W a k t u, trel E false true t u ->
  snd (table_on W a k u) = snd (table_on W a k t) /\ trel E false true (fst (table_on W a k t)) (fst (table_on W a k u)).
Proof.
  intros E W a k t u [A [B [pre [mid [tail [Q1 [Q2 [M [_ K]]]]]]]]]. unfold table_on. rewrite Q1, Q2.
  set (f := fun j => _). destruct (K eq_refl) as [->|N].
  - assert (mid = []) by (destruct M as [M|M]; [exact M|injection M as <-; reflexivity]). subst mid. cbn [app] in *.
    destruct (upd_last f tail) as [[js o]|]; cbn [fst snd].
    + split; [reflexivity|]. repeat split; cbn [tb_name tb_alias tb_joins]; auto. apply jrel_refl.
    + split; [reflexivity|]. repeat split; auto. rewrite Q1, Q2. apply jrel_refl.
  - rewrite !upd_last_app by exact N. destruct (upd_last f tail) as [[js o]|] eqn:Q; cbn [fst snd].
    + split; [reflexivity|]. repeat split; cbn [tb_name tb_alias tb_joins]; auto. exists pre, mid, js. repeat split; auto; [discriminate|].
      intros _. right. eapply upd_last_nonnil; eauto.
    + split; [reflexivity|]. repeat split; auto. exists pre, mid, tail. repeat split; auto; discriminate.
Qed.
Lemma tables_on_rel : forall E W l m a k, tsrel E false true l m ->
  snd (tables_on W m a k) = snd (tables_on W l a k) /\ tsrel E false true (fst (tables_on W l a k)) (fst (tables_on W m a k)).
Proof. intros E W l m a k H. unfold tables_on. apply (upd_last_rel E false true true); [exact H|]. intros; now apply table_on_rel. Qed.

(** ** Text and rendering of related tables *)
Definition mergeable_tabs (E : env) (jl : bool) (l : list (table val)) : Prop := jl = true \/ forall t, In t l -> one_outer_kind E (tb_joins t).
Lemma trel_min : forall E jl b t u, (jl = true \/ one_outer_kind E (tb_joins t)) -> trel E jl b t u ->
  minimize (text E) (tb_joins u) = minimize (text E) (tb_joins t).
Proof.
  intros E jl b t u K [A [B [pre [mid [tail [Q1 [Q2 [M [J _]]]]]]]]]. rewrite Q1, Q2. apply minimize_early; [exact M|].
  destruct K as [K|K]; [destruct (J K); unfold mergeable; auto|]. right; right. now rewrite <- Q1.
Qed.
Lemma trel_text : forall E jl b t u, (jl = true \/ one_outer_kind E (tb_joins t)) -> trel E jl b t u -> table_str E (text E) u = table_str E (text E) t.
Proof.
  intros E jl b t u K T. pose proof (trel_min _ _ _ _ _ K T) as M. destruct T as [A [B J]].
  unfold table_str. now rewrite A, B, (jrel_nil _ _ _ _ _ J), M.
Qed.
Lemma tsrel_text : forall E jl b k l m, mergeable_tabs E jl l -> tsrel E jl b l m -> tables_str E (text E) k m = tables_str E (text E) k l.
Proof.
  intros E jl b k l m K H. apply tsrel_F2 in H. unfold tables_str. rewrite (Forall2_map _ _ (trel E jl false) (table_str E (text E)) l m); [reflexivity| |exact H].
  intros t u Ht. apply trel_text. destruct K as [K|K]; auto.
Qed.
Lemma tsrel_nil : forall E jl b l m, tsrel E jl b l m -> is_nilb m = is_nilb l.
Proof. intros E jl b l m H. destruct H; reflexivity. Qed.
Definition simples (l : list val) : Prop := forall x, In x l -> simple x.
Lemma simples_sames : forall E l, simples l -> sames (touch E) l.
Proof. intros E l H x y Hx. apply simple_same. now apply H. Qed.
Lemma trel_simples : forall E jl b t u, trel E jl b t u -> simples (table_vals t) -> simples (table_vals u).
Proof.
  intros E jl b t u [A [B [pre [mid [tail [Q1 [Q2 [M _]]]]]]]] H x. unfold table_vals. rewrite A, B, Q2.
  intros [<-|[<-|Hx]]; [apply H; now left|apply H; right; now left|]. apply H. right; right.
  rewrite Q1. rewrite flat_map_app, in_app_iff in *. destruct Hx as [Hx|Hx]; [left; eapply min_vals; eauto|now right].
Qed.
(** One rendering of the related tables. *)
Lemma trel_show : forall E jl b t u w, (jl = true \/ one_outer_kind E (tb_joins t)) -> simples (table_vals t) -> trel E jl b t u -> table2 E (touch E) u w -> trel E jl false t w.
Proof.
  intros E jl b t u w K S T X. pose proof (trel_min _ _ _ _ _ K T) as MI.
  apply table2_inv in X; [|apply simples_sames; eapply trel_simples; eauto]. destruct X as [A [B C]].
  assert (TT := T). destruct TT as [A' [B' J]]. split; [congruence|]. split; [congruence|].
  destruct C as [C|C].
  - rewrite C. eapply jrel_weak; eauto.
  - rewrite MI in C. exists (tb_joins t), (tb_joins w), []. rewrite !app_nil_r. repeat split; auto; [now right|discriminate].
Qed.
Lemma tsrel_of : forall E jl l m, Forall2 (trel E jl false) l m -> tsrel E jl false l m.
Proof.
  intros E jl l m F. induction F as [|t u l m T F IH]; [constructor|]. destruct l as [|t' l].
  - inversion F; subst. now apply tr_one.
  - apply tr_cons; [exact T|exact IH|discriminate].
Qed.
Lemma tsrel_show : forall E jl b l m n, mergeable_tabs E jl l -> simples (flat_map table_vals l) -> tsrel E jl b l m -> Forall2 (table2 E (touch E)) m n -> tsrel E jl false l n.
Proof.
  intros E jl b l m n K S H F. apply tsrel_of. apply tsrel_F2 in H. revert n F. induction H as [|t u l m T H IH]; intros n F; inversion F; subst; [constructor|].
  constructor.
  - eapply trel_show; [| |exact T|eassumption].
    + destruct K as [K|K]; [auto|right; apply K; now left].
    + intros x Hx. apply S. cbn [flat_map]. rewrite in_app_iff. auto.
  - apply IH; [| |assumption].
    + destruct K as [K|K]; [now left|right]. intros; apply K; now right.
    + intros x Hx. apply S. cbn [flat_map]. rewrite in_app_iff. auto.
Qed.

(** ** The three kinds of queries *)
Section General.
  Context {Q Op : Type} (E : env) (obj : Q -> val) (step : world -> Q -> Op -> Q * outcome) (kind : Op -> opkind).
  Context (jl : bool) (rel : bool -> Q -> Q -> Prop) (good : Q -> Prop).
  Context (Hshow : forall b s q q', good s -> rel b s q -> touch E (obj q) (obj q') -> rel false s q').
  Context (Hcall : forall b s q W o, good s -> rel b s q -> (kind o = AddsOn -> b = true) -> (jl = true -> kind o = AddsOther) ->
    snd (step W q o) = snd (step W s o) /\ rel (since kind b o (snd (step W s o))) (fst (step W s o)) (fst (step W q o))).
  Context (Htext : forall b s q, good s -> rel b s q -> text E (obj q) = text E (obj s)).
  Lemma watched_rel : forall b q H z os, watched E obj step kind b q H z os ->
    (jl = true -> forall W o, In (W, o) H -> kind o = AddsOther) ->
    forall s, rel b s q -> (forall x, In x (visited step s H) -> good x) ->
    os = outcomes step s H /\ text E (obj z) = text E (obj (calls step s H)).
  Proof.
    intros b q H z os X. induction X as [b q|b q q' H z os T X IH|b q W o H z os L X IH]; intros NJ s R G.
    - split; [reflexivity|]. unfold calls. simpl. apply (Htext b); [apply G; now left|exact R].
    - apply IH; [exact NJ| |exact G]. apply (Hshow b s q); [|exact R|exact T]. apply G. destruct H; now left.
    - destruct (Hcall b s q W o) as [A B]; [apply G; now left|exact R|exact L|intros J; apply (NJ J W); now left|].
      cbn [outcomes]. rewrite A in X, IH |- *.
      destruct (IH (fun J W' o' Ho => NJ J W' o' (or_intror Ho)) (fst (step W s o)) B) as [I1 I2]; [intros; apply G; right; assumption|].
      split; [now rewrite I1|exact I2].
  Qed.
End General.

Definition sel_rel E jl b (s q : selq val) : Prop :=
  tsrel E jl b (s_tabs s) (s_tabs q) /\ q = with_tabs s (s_tabs q).
Definition good_obj {Q} (E : env) (obj : Q -> val) (jl : bool) (s : Q) : Prop := simples (children (obj s)) /\ mergeable_tabs E jl (tables_of (obj s)).
Lemma sel_show : forall E jl b s q q', good_obj E VSelect jl s -> sel_rel E jl b s q -> touch E (VSelect q) (VSelect q') -> sel_rel E jl false s q'.
Proof.
  intros E jl b [op c t w g h o l out fu] q q' [S K] [R ->] T. cbn [children tables_of with_tabs s_opts s_cols s_tabs s_where s_group s_having s_order s_limit s_out s_forupd] in *.
  set (t' := s_tabs q) in *. clearbody t'. clear q.
  unfold sel_vals in S. cbn [s_opts s_cols s_tabs s_where s_group s_having s_order s_limit s_out s_forupd] in S.
  assert (SA : forall l m, simples (l ++ m) -> simples l /\ simples m) by (intros l1 m1 H; split; intros x Hx; apply H; rewrite in_app_iff; auto).
  do 6 (apply SA in S; let X := fresh "S" in destruct S as [X S]).
  inversion T as [ | | | | | | | | | | | | | |p q0 X| | | |]; subst.
  - split; [now apply tsrel_weak in R|reflexivity].
  - destruct q' as [op' c' t2 w' g' h' o' l' out' fu']. unfold sel2 in X. cbn [s_opts s_cols s_tabs s_where s_group s_having s_order s_limit s_out s_forupd] in X.
    destruct X as [<- [X1 [X2 [X3 [X4 [X5 [X6 [<- [X7 <-]]]]]]]]].
    apply pairs2_same in X1; [|now apply simples_sames]. apply Forall2_vals in X3; [|now apply simples_sames].
    apply fst2_same in X4; [|now apply simples_sames]. apply Forall2_vals in X5; [|now apply simples_sames].
    apply fst2_same in X6; [|now apply simples_sames]. apply out2_same in X7; [|now apply simples_sames]. subst.
    split; [|reflexivity]. cbn [s_tabs]. eapply tsrel_show; eauto.
Qed.
Lemma sel_text : forall E jl b s q, good_obj E VSelect jl s -> sel_rel E jl b s q -> text E (VSelect q) = text E (VSelect s).
Proof.
  intros E jl b s q [_ K] [R ->]. rewrite !text_unfold. cbn [str_body]. unfold select_str.
  cbn [with_tabs s_opts s_cols s_tabs s_where s_group s_having s_order s_limit s_out s_forupd].
  now rewrite (tsrel_text E jl b _ _ _ K R), (tsrel_nil _ _ _ _ _ R).
Qed.
Lemma sel_call : forall E jl b s q W o, good_obj E VSelect jl s -> sel_rel E jl b s q -> (sel_kind o = AddsOn -> b = true) -> (jl = true -> sel_kind o = AddsOther) ->
  snd (sel_step W q o) = snd (sel_step W s o) /\ sel_rel E jl (since sel_kind b o (snd (sel_step W s o))) (fst (sel_step W s o)) (fst (sel_step W q o)).
Proof.
  intros E jl b s q W o _ [R Q] L NJ. rewrite Q. set (t := s_tabs q) in *. clearbody t. clear Q q.
  assert (TS : forall a k, snd (lift1 (with_tabs (with_tabs s t)) (tables_set W t a k)) = snd (lift1 (with_tabs s) (tables_set W (s_tabs s) a k)) /\
    sel_rel E jl b (fst (lift1 (with_tabs s) (tables_set W (s_tabs s) a k))) (fst (lift1 (with_tabs (with_tabs s t)) (tables_set W t a k)))).
  { intros a k. destruct (tables_set_rel E jl b W _ _ a k R) as [A B]. split; [exact A|]. split; [exact B|reflexivity]. }
  destruct o; cbn [sel_step since sel_kind s_tabs with_tabs] in *; try apply TS;
    try (split; [reflexivity|]; split; [exact R|reflexivity]).
  - destruct jl; [now specialize (NJ eq_refl)|]. destruct (tables_join_rel E b W ty _ _ arg R) as [A B]. split; [exact A|].
    cbn [lift1 snd fst]. split; [|reflexivity]. unfold since. cbn [sel_kind]. exact B.
  - destruct jl; [now specialize (NJ eq_refl)|]. rewrite (L eq_refl) in *. destruct (tables_on_rel E W _ _ args kwds R) as [A B]. split; [exact A|].
    split; [exact B|reflexivity].
Qed.
Lemma calm_good : forall E Q Op (obj : Q -> val) step (kind : Op -> opkind) q H, calm E obj step kind q H -> exists jl : bool,
  (jl = true -> forall W o, In (W, o) H -> kind o = AddsOther) /\ (forall x, In x (visited step q H) -> good_obj E obj jl x).
Proof.
  intros E Q Op obj step kind q H [A [B|B]].
  - exists true. split; [intros _; exact B|]. intros x Hx. split; [intros y Hy; now apply (A x)|now left].
  - exists false. split; [discriminate|]. intros x Hx. split; [intros y Hy; now apply (A x)|]. right. intros t Ht. now apply (B x).
Qed.
Lemma sel_watched : forall E q H z os, calm E VSelect sel_step sel_kind q H -> watched E VSelect sel_step sel_kind true q H z os ->
  os = outcomes sel_step q H /\ text E (VSelect z) = text E (VSelect (calls sel_step q H)).
Proof.
  intros E q H z os C X. destruct (calm_good _ _ _ _ _ _ _ _ C) as [jl [J G]].
  apply (watched_rel E VSelect sel_step sel_kind jl (sel_rel E jl) (good_obj E VSelect jl) (sel_show E jl) (sel_call E jl) (sel_text E jl) true q H z os X J).
  - split; [apply tsrel_refl|]. destruct q; reflexivity.
  - exact G.
Qed.
Lemma simples_app : forall l m, simples (l ++ m) -> simples l /\ simples m.
Proof. intros l m H; split; intros x Hx; apply H; rewrite in_app_iff; auto. Qed.

Definition upd_rel E jl b (s q : updq val) : Prop :=
  tsrel E jl b (u_tabs s) (u_tabs q) /\ q = MkUpd (u_ignore s) (u_tabs q) (u_vals s) (u_where s) (u_allow s).
Lemma upd_show : forall E jl b s q q', good_obj E VUpdate jl s -> upd_rel E jl b s q -> touch E (VUpdate q) (VUpdate q') -> upd_rel E jl false s q'.
Proof.
  intros E jl b [ig t v w al] q q' [S K] [R Q] T. cbn [children tables_of u_ignore u_tabs u_vals u_where u_allow] in *.
  set (t' := u_tabs q) in *. clearbody t'. subst q. unfold upd_vals in S. cbn [u_ignore u_tabs u_vals u_where u_allow] in S.
  do 2 (apply simples_app in S; let X := fresh "S" in destruct S as [X S]).
  inversion T as [ | | | | | | | | | | | | | | | | |p q0 X|]; subst.
  - split; [now apply tsrel_weak in R|reflexivity].
  - destruct q' as [ig' t2 v' w' al']. unfold upd2 in X. cbn [u_ignore u_tabs u_vals u_where u_allow] in X.
    destruct X as [<- [X1 [X2 [X3 <-]]]].
    apply Forall2_vals in X2; [|now apply simples_sames]. apply Forall2_vals in X3; [|now apply simples_sames]. subst.
    split; [|reflexivity]. cbn [u_tabs]. eapply tsrel_show; eauto.
Qed.
Lemma upd_text : forall E jl b s q, good_obj E VUpdate jl s -> upd_rel E jl b s q -> text E (VUpdate q) = text E (VUpdate s).
Proof.
  intros E jl b s q [_ K] [R ->]. rewrite !text_unfold. cbn [str_body]. unfold update_str. cbn [u_ignore u_tabs u_vals u_where u_allow].
  now rewrite (tsrel_text E jl b _ _ _ K R), (tsrel_nil _ _ _ _ _ R).
Qed.
Lemma upd_call : forall E jl b s q W o, good_obj E VUpdate jl s -> upd_rel E jl b s q -> (upd_kind o = AddsOn -> b = true) -> (jl = true -> upd_kind o = AddsOther) ->
  snd (upd_step W q o) = snd (upd_step W s o) /\ upd_rel E jl (since upd_kind b o (snd (upd_step W s o))) (fst (upd_step W s o)) (fst (upd_step W q o)).
Proof.
  intros E jl b [ig l v w al] q W o _ [R Q] L NJ. cbn [u_ignore u_tabs u_vals u_where u_allow] in *. rewrite Q. set (t := u_tabs q) in *. clearbody t. clear Q q.
  destruct o; cbn [upd_step since upd_kind u_tabs] in *;
    try (split; [reflexivity|]; split; [exact R|reflexivity]).
  - destruct (tables_set_rel E jl b W _ _ [t0] [] R) as [A B]. split; [exact A|]. split; [exact B|reflexivity].
  - destruct jl; [now specialize (NJ eq_refl)|]. destruct (tables_join_rel E b W (j3 ty) _ _ arg R) as [A B]. split; [exact A|].
    cbn [lift1 snd fst]. split; [|reflexivity]. unfold since. cbn [upd_kind]. exact B.
  - destruct jl; [now specialize (NJ eq_refl)|]. rewrite (L eq_refl) in *. destruct (tables_on_rel E W _ _ args kwds R) as [A B]. split; [exact A|].
    split; [exact B|reflexivity].
Qed.
Lemma upd_watched : forall E q H z os, calm E VUpdate upd_step upd_kind q H -> watched E VUpdate upd_step upd_kind true q H z os ->
  os = outcomes upd_step q H /\ text E (VUpdate z) = text E (VUpdate (calls upd_step q H)).
Proof.
  intros E q H z os C X. destruct (calm_good _ _ _ _ _ _ _ _ C) as [jl [J G]].
  apply (watched_rel E VUpdate upd_step upd_kind jl (upd_rel E jl) (good_obj E VUpdate jl) (upd_show E jl) (upd_call E jl) (upd_text E jl) true q H z os X J).
  - split; [apply tsrel_refl|]. destruct q; reflexivity.
  - exact G.
Qed.

Definition del_rel E jl b (s q : delq val) : Prop :=
  tsrel E jl false (d_tabs s) (d_tabs q) /\ tsrel E jl b (d_refs s) (d_refs q) /\ q = MkDel (d_ignore s) (d_tabs q) (d_refs q) (d_where s) (d_allow s).
Lemma mergeable_app : forall E jl l m, mergeable_tabs E jl (l ++ m) -> mergeable_tabs E jl l /\ mergeable_tabs E jl m.
Proof. intros E jl l m [H|H]; [split; now left|]. split; right; intros; apply H; rewrite in_app_iff; auto. Qed.
Lemma del_show : forall E jl b s q q', good_obj E VDelete jl s -> del_rel E jl b s q -> touch E (VDelete q) (VDelete q') -> del_rel E jl false s q'.
Proof.
  intros E jl b [ig t rf w al] q q' [S K] [R1 [R2 Q]] T. cbn [children tables_of d_ignore d_tabs d_refs d_where d_allow] in *.
  set (t' := d_tabs q) in *. set (rf' := d_refs q) in *. clearbody t' rf'. subst q. unfold del_vals in S. cbn [d_ignore d_tabs d_refs d_where d_allow] in S.
  do 2 (apply simples_app in S; let X := fresh "S" in destruct S as [X S]). apply mergeable_app in K. destruct K as [K1 K2].
  inversion T as [ | | | | | | | | | | | | | | | | | |p q0 X]; subst.
  - split; [exact R1|]. split; [now apply tsrel_weak in R2|reflexivity].
  - destruct q' as [ig' t2 rf2 w' al']. unfold del2 in X. cbn [d_ignore d_tabs d_refs d_where d_allow] in X.
    destruct X as [<- [X1 [X2 [X3 <-]]]].
    apply Forall2_vals in X3; [|now apply simples_sames]. subst.
    split; [|split; [|reflexivity]]; cbn [d_tabs d_refs]; eapply tsrel_show; eauto.
Qed.
Lemma del_text : forall E jl b s q, good_obj E VDelete jl s -> del_rel E jl b s q -> text E (VDelete q) = text E (VDelete s).
Proof.
  intros E jl b s q [_ K] [R1 [R2 ->]]. apply mergeable_app in K. destruct K as [K1 K2].
  rewrite !text_unfold. cbn [str_body]. unfold delete_str. cbn [d_ignore d_tabs d_refs d_where d_allow].
  now rewrite (tsrel_text E jl _ _ _ _ K1 R1), (tsrel_text E jl _ _ _ _ K2 R2), (tsrel_nil _ _ _ _ _ R1), (tsrel_nil _ _ _ _ _ R2).
Qed.
Lemma del_call : forall E jl b s q W o, good_obj E VDelete jl s -> del_rel E jl b s q -> (del_kind o = AddsOn -> b = true) -> (jl = true -> del_kind o = AddsOther) ->
  snd (del_step W q o) = snd (del_step W s o) /\ del_rel E jl (since del_kind b o (snd (del_step W s o))) (fst (del_step W s o)) (fst (del_step W q o)).
Proof.
  intros E jl b [ig l rf w al] q W o _ [R1 [R2 Q]] L NJ. cbn [d_ignore d_tabs d_refs d_where d_allow] in *. rewrite Q.
  set (t := d_tabs q) in *. set (rf' := d_refs q) in *. clearbody t rf'. clear Q q.
  destruct o; cbn [del_step since del_kind d_tabs d_refs] in *;
    try (split; [reflexivity|]; split; [exact R1|split; [exact R2|reflexivity]]).
  - destruct (tables_set_rel E jl false W _ _ args [] R1) as [A B]. split; [exact A|]. split; [exact B|split; [exact R2|reflexivity]].
  - destruct (tables_set_rel E jl b W _ _ args kwds R2) as [A B]. split; [exact A|]. split; [exact R1|split; [exact B|reflexivity]].
  - destruct (tables_set_rel E jl b W _ _ [VSeq KTuple [t0; a]] [] R2) as [A B]. split; [exact A|]. split; [exact R1|split; [exact B|reflexivity]].
  - destruct jl; [now specialize (NJ eq_refl)|]. destruct (tables_join_rel E b W (j3 ty) _ _ arg R2) as [A B]. split; [exact A|].
    cbn [lift1 snd fst]. split; [exact R1|]. split; [|reflexivity]. unfold since. cbn [del_kind]. exact B.
  - destruct jl; [now specialize (NJ eq_refl)|]. rewrite (L eq_refl) in *. destruct (tables_on_rel E W _ _ args kwds R2) as [A B]. split; [exact A|].
    split; [exact R1|]. split; [exact B|reflexivity].
Qed.
Lemma del_watched : forall E q H z os, calm E VDelete del_step del_kind q H -> watched E VDelete del_step del_kind true q H z os ->
  os = outcomes del_step q H /\ text E (VDelete z) = text E (VDelete (calls del_step q H)).
Proof.
  intros E q H z os C X. destruct (calm_good _ _ _ _ _ _ _ _ C) as [jl [J G]].
  apply (watched_rel E VDelete del_step del_kind jl (del_rel E jl) (good_obj E VDelete jl) (del_show E jl) (del_call E jl) (del_text E jl) true q H z os X J).
  - split; [apply tsrel_refl|split; [apply tsrel_refl|]]. destruct q; reflexivity.
  - exact G.
Qed.

Definition ins_rel E jl b (s q : insq val) : Prop :=
  tsrel E jl b (i_tabs s) (i_tabs q) /\ q = MkIns (i_replace s) (i_ignore s) (i_tabs q) (i_rows s) (i_dup s) (i_conflict s) (i_upd s).
Lemma ins_show : forall E jl b s q q', good_obj E VInsert jl s -> ins_rel E jl b s q -> touch E (VInsert q) (VInsert q') -> ins_rel E jl false s q'.
Proof.
  intros E jl b [rp ig t rows dup cf upd] q q' [S K] [R Q] T. cbn [children tables_of i_replace i_ignore i_tabs i_rows i_dup i_conflict i_upd] in *.
  set (t' := i_tabs q) in *. clearbody t'. subst q. unfold ins_vals in S. cbn [i_replace i_ignore i_tabs i_rows i_dup i_conflict i_upd] in S.
  do 3 (apply simples_app in S; let X := fresh "S" in destruct S as [X S]).
  inversion T as [ | | | | | | | | | | | | | | | |p q0 X| |]; subst.
  - split; [now apply tsrel_weak in R|reflexivity].
  - destruct q' as [rp' ig' t2 rows' dup' cf' upd']. unfold ins2 in X. cbn [i_replace i_ignore i_tabs i_rows i_dup i_conflict i_upd] in X.
    destruct X as [<- [<- [X1 [X2 [X3 [<- X4]]]]]].
    apply rows2_same in X2; [|now apply simples_sames]. apply Forall2_vals in X3; [|now apply simples_sames]. apply Forall2_vals in X4; [|now apply simples_sames]. subst.
    split; [|reflexivity]. cbn [i_tabs]. eapply tsrel_show; eauto.
Qed.
Lemma ins_text : forall E jl b s q, good_obj E VInsert jl s -> ins_rel E jl b s q -> text E (VInsert q) = text E (VInsert s).
Proof.
  intros E jl b s q [_ K] [R ->]. rewrite !text_unfold. cbn [str_body]. unfold insert_str. cbn [i_replace i_ignore i_tabs i_rows i_dup i_conflict i_upd].
  now rewrite (tsrel_text E jl b _ _ _ K R), (tsrel_nil _ _ _ _ _ R).
Qed.
Lemma ins_call : forall E jl b s q W o, good_obj E VInsert jl s -> ins_rel E jl b s q -> (ins_kind o = AddsOn -> b = true) -> (jl = true -> ins_kind o = AddsOther) ->
  snd (ins_step W q o) = snd (ins_step W s o) /\ ins_rel E jl (since ins_kind b o (snd (ins_step W s o))) (fst (ins_step W s o)) (fst (ins_step W q o)).
Proof.
  intros E jl b [rp ig l rows dup cf upd] q W o _ [R Q] L NJ. cbn [i_replace i_ignore i_tabs i_rows i_dup i_conflict i_upd] in *. rewrite Q. set (t := i_tabs q) in *. clearbody t. clear Q q.
  destruct o; cbn [ins_step since ins_kind i_tabs] in *;
    try (split; [reflexivity|]; split; [exact R|reflexivity]).
  - destruct (tables_set_rel E jl b W _ _ [t0] [] R) as [A B]. split; [exact A|]. split; [exact B|reflexivity].
  - unfold since; cbn [ins_kind].
    destruct (if supports_on_duplicate_key_update _ then _ else _) as [dup' [u|e]].
    + destruct (if supports_on_conflict_do_update _ then _ else _) as [[cf' upd'] [u2|e]].
      * destruct (supports_replace_into _); [destruct (_ || _)|]; (split; [reflexivity|]; split; [exact R|reflexivity]).
      * split; [reflexivity|]; split; [exact R|reflexivity].
    + split; [reflexivity|]; split; [exact R|reflexivity].
Qed.
Lemma ins_watched : forall E q H z os, calm E VInsert ins_step ins_kind q H -> watched E VInsert ins_step ins_kind true q H z os ->
  os = outcomes ins_step q H /\ text E (VInsert z) = text E (VInsert (calls ins_step q H)).
Proof.
  intros E q H z os C X. destruct (calm_good _ _ _ _ _ _ _ _ C) as [jl [J G]].
  apply (watched_rel E VInsert ins_step ins_kind jl (ins_rel E jl) (good_obj E VInsert jl) (ins_show E jl) (ins_call E jl) (ins_text E jl) true q H z os X J).
  - split; [apply tsrel_refl|]. destruct q; reflexivity.
  - exact G.
Qed.
Lemma touches_simple : forall E v v', simple v -> touches E v v' -> v' = v.
Proof.
  intros E v v' S T. induction T as [v|v w x X T IH]; [reflexivity|]. assert (w = v) by (eapply simple_same; eauto). subst. now apply IH.
Qed.
Lemma join_same_dict : forall W q ty p, exists e, snd (sel_step W q (SJoin ty (join_arg_after (VDict [p])))) = Err e.
Proof.
  intros W q ty p. cbn [join_arg_after sel_step lift1 snd].
  assert (J : exists e, join_target W (VDict []) = Err e) by (cbn [join_target]; destruct (w_str W (VDict [])); eauto).
  destruct J as [e J].
  assert (G : forall ty l, exists e', snd (on_last_table (table_join W ty (VDict [])) l) = Err e').
  { clear -J. intros ty l. unfold on_last_table.
    assert (X : match upd_last (table_join W ty (VDict [])) l with Some (_, o) => o = Err e | None => True end).
    { induction l as [|t l IH]; [exact I|]. cbn [upd_last]. destruct l as [|t' l].
      - unfold table_join. rewrite J. reflexivity.
      - destruct (upd_last _ (t' :: l)) as [[l' o]|]; [exact IH|exact I]. }
    destruct (upd_last _ l) as [[l' o]|]; [rewrite X|]; simpl; eauto. }
  unfold tables_join. destruct ty; try apply G. destruct (supports_full_join _); [apply G|]. simpl. eauto.
Qed.
