(** Lemmas: Table._minimize_joins on the objects. *)
From Coq Require Import Lia Permutation.
From Verif Require Import Base NumFmt Value Backend Eq Render ParseArgs Build Heap SpecHeap PfHeap PfHeapAlike PfHeapFrame PfHeapView HeapBuild HeapShow SpecShare PfShare PfOwn PfParts PfNewItems PfMethods PfLayout PfOrders PfTables PfJoins.
Open Scope nat_scope.
Local Arguments view : simpl never.

(** ** Groups *)
Definition flat {A} (gs : list (A * list A)) : list A := flat_map (fun g => fst g :: snd g) gs.
Lemma add_flat : forall W h j gs gs', r_group_add W h j gs = Ok gs' -> Permutation (flat gs') (j :: flat gs).
Proof.
  intros W h j gs. induction gs as [|[d t] gs IH]; intros gs' E; cbn in E; [injection E as <-; reflexivity|].
  destruct (h_same_join W h d j) as [[]|]; [| |discriminate].
  - injection E as <-. cbn. rewrite <- app_assoc. cbn. apply perm_trans with (d :: j :: t ++ flat gs); [|apply perm_swap]. constructor. symmetry. apply Permutation_middle.
  - destruct (r_group_add W h j gs) as [r|] eqn:R; [|discriminate]. injection E as <-. specialize (IH _ eq_refl). cbn.
    apply perm_trans with (d :: t ++ j :: flat gs); [constructor; apply Permutation_app_head; exact IH|].
    apply perm_trans with (d :: j :: t ++ flat gs); [constructor; symmetry; apply Permutation_middle|apply perm_swap].
Qed.
Lemma group_flat : forall W h js gs gs', r_group_joins W h js gs = Ok gs' -> Permutation (flat gs') (js ++ flat gs).
Proof.
  intros W h js. induction js as [|j js IH]; intros gs gs' E; cbn in E; [injection E as <-; reflexivity|].
  destruct (r_group_add W h j gs) as [g1|] eqn:A; [|discriminate]. rewrite (IH _ _ E), (add_flat _ _ _ _ _ A). cbn. symmetry. apply Permutation_middle.
Qed.
Section Vals.
  Variables (W : world) (h : heap).
  Definition sees (r : ref) (v : join val) : Prop := see_join h r = Ok v.
  Definition grel (g : rgroup) (v : jgroup) : Prop := sees (fst g) (fst v) /\ Forall2 sees (snd g) (snd v).
  Lemma add_vals : forall j vj gs vgs, sees j vj -> Forall2 grel gs vgs ->
    match r_group_add W h j gs with
    | Ok gs' => exists vgs', group_add (w_str W) vj vgs = Ok vgs' /\ Forall2 grel gs' vgs'
    | Err e => group_add (w_str W) vj vgs = Err e
    end.
  Proof.
    intros j vj gs vgs SJ F. induction F as [|[d t] [vd vt] gs vgs [SD ST] F IH]; cbn [r_group_add group_add fst snd] in *.
    - eexists. split; [reflexivity|]. constructor; [split; [exact SJ|constructor]|constructor].
    - unfold h_same_join. unfold sees in *. rewrite SD. cbn [bind]. rewrite SJ. cbn [bind]. destruct (same_join (w_str W) vd vj) as [[]|e].
      + eexists. split; [reflexivity|]. constructor; [|exact F]. split; [exact SD|]. apply Forall2_app; [exact ST|]. constructor; [exact SJ|constructor].
      + destruct (r_group_add W h j gs) as [g|e].
        * destruct IH as (vg & -> & F'). eexists. split; [reflexivity|]. constructor; [split; [exact SD|exact ST]|exact F'].
        * rewrite IH. reflexivity.
      + reflexivity.
  Qed.
  Lemma group_vals : forall js vjs gs vgs, Forall2 sees js vjs -> Forall2 grel gs vgs ->
    match r_group_joins W h js gs with
    | Ok gs' => exists vgs', group_joins (w_str W) vjs vgs = Ok vgs' /\ Forall2 grel gs' vgs'
    | Err e => group_joins (w_str W) vjs vgs = Err e
    end.
  Proof.
    intros js vjs gs vgs FJ. revert gs vgs. induction FJ as [|j vj js vjs SJ FJ IH]; intros gs vgs F; cbn [r_group_joins group_joins].
    - exists vgs. split; [reflexivity|exact F].
    - pose proof (add_vals j vj gs vgs SJ F) as X. destruct (r_group_add W h j gs) as [g|e].
      + destruct X as (vg & -> & F'). exact (IH _ _ F').
      + rewrite X. reflexivity.
  Qed.
End Vals.

(** ** What becomes of a group, and of its types *)
Definition psettle (ty : addr -> jointy) (g : addr * list addr) : list (addr * jointy) :=
  let (d, t) := g in
  if negb (is_nilb t) && existsb (fun x => jointy_eqb x JInner) (map ty (d :: t)) then [(d, JInner)]
  else if negb (is_nilb t) && forallb (fun x => jointy_eqb x (hd JInner (map ty (d :: t)))) (map ty (d :: t)) then [(d, ty d)]
  else map (fun x => (x, ty x)) (d :: t).
Definition retype (ty : addr -> jointy) (d : addr) (x : jointy) : addr -> jointy := fun a => if Nat.eqb a d then x else ty a.
Lemma psettle_sub : forall ty g p x, In (p, x) (psettle ty g) -> In p (fst g :: snd g).
Proof.
  intros ty [d t] p x I. unfold psettle in I. destruct (_ && _); [destruct I as [E|[]]; injection E as <- _; left; reflexivity|].
  destruct (_ && _); [destruct I as [E|[]]; injection E as <- _; left; reflexivity|]. apply in_map_iff in I. destruct I as (y & E & I). injection E as <- _. exact I.
Qed.
Lemma psettle_nodup : forall ty g, NoDup (fst g :: snd g) -> NoDup (map fst (psettle ty g)).
Proof.
  intros ty [d t] N. unfold psettle. destruct (_ && _); [constructor; [intros []|constructor]|]. destruct (_ && _); [constructor; [intros []|constructor]|].
  rewrite map_map. cbn [fst snd] in N. rewrite map_id. exact N.
Qed.
Lemma settles_sub : forall ty gs p x, In (p, x) (flat_map (psettle ty) gs) -> In p (flat gs).
Proof. intros ty gs p x I. apply in_flat_map in I. destruct I as (g & IG & I). apply in_flat_map. exists g. split; [exact IG|eapply psettle_sub; eauto]. Qed.
Lemma nodup_apps : forall A (l m : list A), NoDup (l ++ m) -> NoDup l /\ NoDup m /\ forall x, In x l -> ~ In x m.
Proof.
  intros A l m N. induction l as [|y l IH]; cbn in N; [split; [constructor|split; [exact N|intros x []]]|]. inversion N as [|? ? N1 N2]; subst. destruct (IH N2) as (A1 & A2 & A3).
  split; [constructor; [intros I; apply N1; apply in_or_app; left; exact I|exact A1]|]. split; [exact A2|]. intros x [->|I]; [intros I; apply N1; apply in_or_app; right; exact I|auto].
Qed.
Lemma apps_nodup : forall A (l m : list A), NoDup l -> NoDup m -> (forall x, In x l -> ~ In x m) -> NoDup (l ++ m).
Proof.
  intros A l m NL NM D. induction NL as [|y l N1 NL IH]; [exact NM|]. cbn. constructor.
  - intros I. apply in_app_or in I. destruct I as [I|I]; [exact (N1 I)|exact (D y (or_introl eq_refl) I)].
  - apply IH. intros x I. apply D. right. exact I.
Qed.
Lemma settles_nodup : forall ty gs, NoDup (flat gs) -> NoDup (map fst (flat_map (psettle ty) gs)).
Proof.
  intros ty gs. induction gs as [|g gs IH]; intros N; [constructor|]. change (flat (g :: gs)) with ((fst g :: snd g) ++ flat gs) in N.
  destruct (nodup_apps _ _ _ N) as (N1 & N2 & D). cbn [flat_map]. rewrite map_app. apply apps_nodup; [apply psettle_nodup; exact N1|exact (IH N2)|].
  intros x I1 I2. apply in_map_iff in I1. destruct I1 as ([p y] & <- & I1). apply in_map_iff in I2. destruct I2 as ([p' y'] & E & I2). cbn in E. subst p'.
  exact (D p (psettle_sub _ _ _ _ I1) (settles_sub _ _ _ _ I2)).
Qed.
Lemma psettle_ext : forall ty ty' g, (forall x, In x (fst g :: snd g) -> ty x = ty' x) -> psettle ty g = psettle ty' g.
Proof.
  intros ty ty' [d t] E. cbn [fst snd] in E. unfold psettle. rewrite (map_ext_in ty ty' (d :: t) E). rewrite (E d (or_introl eq_refl)).
  rewrite (map_ext_in (fun x => (x, ty x)) (fun x => (x, ty' x)) (d :: t)); [reflexivity|]. intros x I. rewrite (E x I). reflexivity.
Qed.
Lemma settles_ext : forall ty ty' gs, (forall x, In x (flat gs) -> ty x = ty' x) -> flat_map (psettle ty) gs = flat_map (psettle ty') gs.
Proof.
  intros ty ty' gs E. induction gs as [|g gs IH]; [reflexivity|]. change (flat (g :: gs)) with ((fst g :: snd g) ++ flat gs) in E.
  assert (E1 : forall x, In x (fst g :: snd g) -> ty x = ty' x) by (intros x I; apply E; apply in_or_app; left; exact I).
  assert (E2 : forall x, In x (flat gs) -> ty x = ty' x) by (intros x I; apply E; apply in_or_app; right; exact I).
  cbn [flat_map]. rewrite (psettle_ext ty ty' g E1), (IH E2). reflexivity.
Qed.
(** ... is what becomes of the values. *)
Definition typed (x : jointy) (v : join val) : join val := MkJoin x (j_name v) (j_alias v) (j_ons v).
Definition out_rel (h : heap) (x : addr * jointy) (w : join val) : Prop := exists v, sees h (RPtr (fst x)) v /\ w = typed (snd x) v.
Lemma typed_self : forall v, typed (j_type v) v = v.
Proof. intros []. reflexivity. Qed.
Lemma settle_vals : forall h ty d t vd vt, (forall p v, In p (d :: t) -> sees h (RPtr p) v -> j_type v = ty p) ->
  grel h (RPtr d, map RPtr t) (vd, vt) -> Forall2 (out_rel h) (psettle ty (d, t)) (settle_group (vd, vt)).
Proof.
  intros h ty d t vd vt T [SD ST]. cbn [fst snd] in *.
  assert (ET : Forall2 (fun p v => j_type v = ty p) (d :: t) (vd :: vt)).
  { constructor; [apply T; [left; reflexivity|exact SD]|]. clear SD. assert (T' : forall p v, In p t -> sees h (RPtr p) v -> j_type v = ty p) by (intros; apply T; [right; assumption|assumption]). clear T.
    revert vt ST. induction t as [|p t IH]; intros vt ST; inversion ST; subst; constructor; [apply T'; [left; reflexivity|assumption]|]. apply IH; [|assumption]. intros; apply T'; [right; assumption|assumption]. }
  assert (EM : map ty (d :: t) = map (@j_type val) (vd :: vt)). { clear - ET. induction ET as [|? ? ? ? E ET IH]; [reflexivity|]. cbn [map]. rewrite E, IH. reflexivity. }
  assert (EN : is_nilb t = is_nilb vt). { inversion ST as [E1|? ? ? ? ? ? E1]; destruct t; cbn in *; try discriminate; reflexivity. }
  assert (EX : existsb (fun x => jointy_eqb x JInner) (map ty (d :: t)) = existsb is_inner (vd :: vt)). { rewrite EM. clear. induction (vd :: vt) as [|v l IH]; [reflexivity|]. cbn [map existsb]. rewrite IH. reflexivity. }
  assert (ED : ty d = j_type vd) by (inversion ET; subst; congruence).
  assert (EF : forallb (fun x => jointy_eqb x (hd JInner (map ty (d :: t)))) (map ty (d :: t)) = forallb (fun j => jointy_eqb (j_type j) (j_type vd)) (vd :: vt)).
  { rewrite EM. change (hd JInner (map (@j_type val) (vd :: vt))) with (j_type vd). clear. generalize (j_type vd). intros y. induction (vd :: vt) as [|v l IH]; [reflexivity|]. cbn [map forallb]. rewrite IH. reflexivity. }
  unfold psettle, settle_group. rewrite EX, EF, EN. destruct (_ && _); [|destruct (_ && _)].
  - constructor; [|constructor]. exists vd. split; [exact SD|reflexivity].
  - constructor; [|constructor]. exists vd. split; [exact SD|]. cbn [snd]. rewrite ED. symmetry. apply typed_self.
  - assert (X : Forall2 (sees h) (map RPtr (d :: t)) (vd :: vt)) by (constructor; assumption). clear - X ET. revert X ET. generalize (vd :: vt) as vs. generalize (d :: t) as ds.
    induction ds as [|p ds IH]; intros vs X ET.
    + inversion X; subst. constructor.
    + cbn [map] in X. inversion X as [|? y ? vs' SY X' E1 E2]; subst. inversion ET as [|? ? ? ? TY ET' E1 E2]; subst. constructor; [|apply IH; assumption].
      exists y. split; [exact SY|]. cbn [snd]. rewrite <- TY. symmetry. apply typed_self.
Qed.
(** ** The loop over the groups *)
Definition refg (g : addr * list addr) : rgroup := (RPtr (fst g), map RPtr (snd g)).
Definition is_join (h : heap) (ty : addr -> jointy) (p : addr) : Prop := exists t o, get h p = Some (join_obj (ty p) t o).
Definition retyped (h h' : heap) (ty : addr -> jointy) (p : addr) (x : jointy) : Prop :=
  exists t o, get h p = Some (join_obj (ty p) t o) /\ get h' p = Some (join_obj x t o).
Lemma h_type_at : forall h ty p, is_join h ty p -> h_type h (RPtr p) = Ok (ty p).
Proof. intros h ty p (t & o & G). unfold h_type. destruct (join_lookup _ _ _ _ _ G) as (-> & _). cbn [bind]. apply d_jointy_ref. Qed.
Lemma types_at : forall h ty ps, Forall (is_join h ty) ps -> mapM (h_type h) (map RPtr ps) = Ok (map ty ps).
Proof. intros h ty ps F. induction F as [|p ps J F IH]; [reflexivity|]. cbn [map mapM]. rewrite (h_type_at _ _ _ J). cbn [bind]. rewrite IH. reflexivity. Qed.
Lemma push_run : forall h z l r, get h z = Some (MkObj OList (map item l)) -> push (RPtr z) r h = (put h z (MkObj OList (map item (l ++ [r]))), Ok tt).
Proof. intros h z l r G. unfold push, change. rewrite G, map_app. reflexivity. Qed.
Lemma pushes_run : forall rs h z l, get h z = Some (MkObj OList (map item l)) ->
  exists h', for_each (push (RPtr z)) rs h = (h', Ok tt) /\ get h' z = Some (MkObj OList (map item (l ++ rs))) /\ List.length h' = List.length h /\ forall p, p <> z -> get h' p = get h p.
Proof.
  induction rs as [|r rs IH]; intros h z l G; cbn [for_each].
  - exists h. rewrite app_nil_r. auto.
  - unfold hbind. rewrite (push_run _ _ _ _ G). assert (L : z < List.length h) by (eapply get_lt; eauto).
    destruct (IH (put h z (MkObj OList (map item (l ++ [r])))) z (l ++ [r])) as (h' & R & G' & LL & F); [apply get_put_same; exact L|].
    exists h'. split; [exact R|]. rewrite <- app_assoc in G'. split; [exact G'|]. rewrite put_length in LL. split; [exact LL|]. intros p N. rewrite F by exact N. apply get_put_other. exact N.
Qed.
Lemma store_run : forall h p ty t o x, get h p = Some (join_obj ty t o) -> store (RPtr p) "type" (jointy_ref x) h = (put h p (join_obj x t o), Ok tt).
Proof. intros h p ty t o x G. unfold store, change. rewrite G. reflexivity. Qed.
Lemma settle_run : forall ty g h z l, get h z = Some (MkObj OList (map item l)) -> Forall (is_join h ty) (fst g :: snd g) -> ~ In z (fst g :: snd g) ->
  exists h', h_settle_group (RPtr z) (refg g) h = (h', Ok tt) /\ get h' z = Some (MkObj OList (map item (l ++ map RPtr (map fst (psettle ty g))))) /\
    List.length h' = List.length h /\ (forall p x, In (p, x) (psettle ty g) -> NoDup (fst g :: snd g) -> retyped h h' ty p x) /\
    (forall p, p <> z -> ~ In p (fst g :: snd g) -> get h' p = get h p) /\ (forall p, In p (fst g :: snd g) -> exists x, retyped h h' ty p x).
Proof.
  intros ty [d t] h z l G F NZ. cbn [fst snd] in *. unfold h_settle_group, refg. cbn [fst snd]. unfold hbind at 1, look at 1.
  change (RPtr d :: map RPtr t) with (map RPtr (d :: t)). rewrite (types_at _ _ _ F). unfold psettle.
  replace (is_nilb (map RPtr t)) with (is_nilb t) by (destruct t; reflexivity).
  assert (ZD : z <> d) by (intros ->; apply NZ; left; reflexivity). assert (LZ : z < List.length h) by (eapply get_lt; eauto).
  destruct (negb (is_nilb t) && _).
  - inversion F as [|? ? (t0 & o0 & GD) _]; subst. assert (LD : d < List.length h) by (eapply get_lt; eauto).
    unfold hbind. rewrite (store_run _ _ _ _ _ JInner GD).
    rewrite (push_run _ z l) by (rewrite get_put_other by exact ZD; exact G). eexists. split; [reflexivity|]. split; [apply get_put_same; rewrite put_length; exact LZ|].
    split; [rewrite !put_length; reflexivity|]. split.
    + intros p x [E|[]] _. injection E as <- <-. exists t0, o0. split; [exact GD|]. rewrite get_put_other by congruence. apply get_put_same. exact LD.
    + split; [intros p N1 N2; rewrite get_put_other by exact N1; apply get_put_other; intros ->; apply N2; left; reflexivity|].
      intros p I. rewrite Forall_forall in F. destruct (F p I) as (t1 & o1 & GP). assert (ZP : p <> z) by (intros ->; exact (NZ I)). destruct (Nat.eq_dec p d) as [->|N].
      * exists JInner, t0, o0. split; [exact GD|]. rewrite get_put_other by exact ZP. apply get_put_same. exact LD.
      * exists (ty p), t1, o1. split; [exact GP|]. rewrite get_put_other by exact ZP. rewrite get_put_other by exact N. exact GP.
  - destruct (negb (is_nilb t) && _).
    + rewrite (push_run _ z l _ G). eexists. split; [reflexivity|]. split; [apply get_put_same; exact LZ|]. split; [apply put_length|]. split.
      * intros p x [E|[]] _. injection E as <- <-. inversion F as [|? ? (t0 & o0 & GD) _]; subst. exists t0, o0. split; [exact GD|]. rewrite get_put_other by congruence. exact GD.
      * split; [intros p N1 _; apply get_put_other; exact N1|]. intros p I. rewrite Forall_forall in F. destruct (F p I) as (t1 & o1 & GP).
        exists (ty p), t1, o1. split; [exact GP|]. rewrite get_put_other; [exact GP|]. intros ->. exact (NZ I).
    + destruct (pushes_run (map RPtr (d :: t)) h z l G) as (h' & R & G' & LL & FR). exists h'. split; [exact R|]. rewrite map_map. cbn [fst]. rewrite map_map. split; [exact G'|].
      split; [exact LL|]. split.
      2: { split; [intros p N1 _; apply FR; exact N1|]. intros p I. rewrite Forall_forall in F. destruct (F p I) as (t1 & o1 & GP).
           exists (ty p), t1, o1. split; [exact GP|]. rewrite FR; [exact GP|]. intros ->. exact (NZ I). }
      intros p x I _. apply in_map_iff in I. destruct I as (y & E & I). injection E as <- <-.
      rewrite Forall_forall in F. destruct (F y I) as (t0 & o0 & GY). exists t0, o0. split; [exact GY|]. rewrite FR; [exact GY|]. intros ->. exact (NZ I).
Qed.
Lemma settles_run : forall ty gs h z l, get h z = Some (MkObj OList (map item l)) -> Forall (is_join h ty) (flat gs) -> NoDup (flat gs) -> ~ In z (flat gs) ->
  exists h', for_each (h_settle_group (RPtr z)) (map refg gs) h = (h', Ok tt) /\ get h' z = Some (MkObj OList (map item (l ++ map RPtr (map fst (flat_map (psettle ty) gs))))) /\
    List.length h' = List.length h /\ (forall p x, In (p, x) (flat_map (psettle ty) gs) -> retyped h h' ty p x) /\
    (forall p, p <> z -> ~ In p (flat gs) -> get h' p = get h p) /\ (forall p, In p (flat gs) -> exists x, retyped h h' ty p x).
Proof.
  intros ty gs. induction gs as [|g gs IH]; intros h z l G F N NZ; cbn [map for_each flat_map].
  - exists h. cbn [map]. rewrite app_nil_r. split; [reflexivity|]. split; [exact G|]. split; [reflexivity|]. split; [intros p x []|split; [auto|intros p []]].
  - change (flat (g :: gs)) with ((fst g :: snd g) ++ flat gs) in F, N, NZ |- *. apply Forall_app in F. destruct F as [F1 F2]. destruct (nodup_apps _ _ _ N) as (N1 & N2 & D).
    assert (NZ1 : ~ In z (fst g :: snd g)) by (intros I; apply NZ; apply in_or_app; left; exact I). assert (NZ2 : ~ In z (flat gs)) by (intros I; apply NZ; apply in_or_app; right; exact I).
    destruct (settle_run ty g h z l G F1 NZ1) as (h1 & R1 & G1 & L1 & T1 & X1 & Y1). unfold hbind at 1. rewrite R1.
    assert (SAME : forall p, In p (flat gs) -> get h1 p = get h p). { intros p I. apply X1; [intros ->; exact (NZ2 I)|]. intros I'. exact (D _ I' I). }
    assert (F2' : Forall (is_join h1 ty) (flat gs)). { rewrite Forall_forall in F2 |- *. intros p I. destruct (F2 p I) as (t0 & o0 & E). exists t0, o0. rewrite SAME by exact I. exact E. }
    destruct (IH h1 z _ G1 F2' N2 NZ2) as (h' & R & G' & LL & T & X & Y). exists h'. split; [exact R|]. split; [rewrite (map_app fst), (map_app RPtr), app_assoc; exact G'|]. split; [congruence|]. split.
    + intros p x I. apply in_app_or in I. destruct I as [I|I].
      * destruct (T1 p x I N1) as (t0 & o0 & A & B). exists t0, o0. split; [exact A|]. pose proof (psettle_sub _ _ _ _ I) as IP. rewrite X; [exact B|intros ->; exact (NZ1 IP)|exact (D _ IP)].
      * destruct (T p x I) as (t0 & o0 & A & B). exists t0, o0. split; [|exact B]. rewrite <- SAME; [exact A|]. eapply settles_sub; eauto.
    + split.
      * intros p NP NI. rewrite X; [apply X1; [exact NP|]|exact NP|]; intros I; apply NI; apply in_or_app; [left|right]; exact I.
      * intros p I. apply in_app_or in I. destruct I as [I|I].
        -- destruct (Y1 p I) as (x & t0 & o0 & A & B). exists x, t0, o0. split; [exact A|]. rewrite X; [exact B|intros ->; exact (NZ1 I)|exact (D _ I)].
        -- destruct (Y p I) as (x & t0 & o0 & A & B). exists x, t0, o0. split; [|exact B]. rewrite <- SAME by exact I. exact A.
Qed.

(** ** Many objects of one query written *)
Lemma after_many : forall (G C : addr -> Prop) own h h', inv own h -> List.length h' = List.length h ->
  (forall p, get h' p = get h p \/ (C p /\ exists q s k l l', own p = Some (q, s) /\ get h p = Some (MkObj k l) /\ get h' p = Some (MkObj k l') /\
     forall a r, In (a, r) l' -> mine own h q r)) -> after G C own h own h'.
Proof.
  intros G C own h h' [CL O P N] LL F.
  assert (KK : forall p, kind_of h' p = kind_of h p). { intros p. unfold kind_of. destruct (F p) as [->|(_ & q & s & k & l & l' & _ & -> & -> & _)]; reflexivity. }
  assert (RR : forall p r, refers h' p r -> refers h p r \/ exists q s, own p = Some (q, s) /\ mine own h q r).
  { intros p r (k & l & a & GP & I). destruct (F p) as [E|(_ & q & s & k' & l1 & l2 & OP & _ & E & M)].
    - left. exists k, l, a. rewrite <- E. auto.
    - right. exists q, s. split; [exact OP|]. rewrite E in GP. injection GP as <- <-. eauto. }
  split; [|split].
  - split; [lia|]. split; [auto|]. intros p k K. rewrite KK. exact K.
  - split.
    + intros p b R. rewrite LL. destruct (RR _ _ R) as [R'|(q & s & _ & M)]; [eapply CL; eauto|]. cbn in M. lia.
    + intros p q s E. rewrite LL. destruct (O _ _ _ E) as (A & B & c & D). split; [exact A|]. split; [exact B|]. exists c. rewrite KK. exact D.
    + intros a b q s R E. destruct (RR _ _ R) as [R'|(q' & s' & OA & M)]; [eapply P; eauto|]. cbn in M. rewrite E in M. destruct M as [_ ->]. right. eauto.
    + intros p x E. rewrite KK. eauto.
  - intros p L. destruct (F p) as [E|(X & _)]; auto.
Qed.
(** ** Positions *)
Fixpoint pos (p : addr) (l : list addr) : nat := match l with [] => 0 | x :: l => if Nat.eqb p x then 0 else S (pos p l) end.
Lemma pos_in : forall p l, In p l -> nth_error l (pos p l) = Some p.
Proof. intros p l. induction l as [|x l IH]; intros I; [destruct I|]. cbn. destruct (Nat.eqb_spec p x) as [->|N]; [reflexivity|]. destruct I as [->|I]; [contradiction N; reflexivity|]. cbn. auto. Qed.
Lemma ats_nth : forall X (P : nat -> ref -> X -> Prop) items i xs n r, ats P i items xs -> nth_error items n = Some r ->
  exists i1 i2 xs1 x xs2, items = i1 ++ r :: i2 /\ xs = xs1 ++ x :: xs2 /\ List.length i1 = n /\ List.length xs1 = n /\ ats P i i1 xs1 /\ P (i + n) r x /\ ats P (S (i + n)) i2 xs2.
Proof.
  intros X P items. induction items as [|r0 items IH]; intros i [|x0 xs] [|n] r A E; cbn in A, E; try contradiction; try discriminate; destruct A as [A B].
  - injection E as <-. exists [], items, [], x0, xs. rewrite Nat.add_0_r. cbn. auto 10.
  - destruct (IH _ _ _ _ B E) as (i1 & i2 & xs1 & x & xs2 & -> & -> & L1 & L2 & A1 & A2 & A3). exists (r0 :: i1), i2, (x0 :: xs1), x, xs2. cbn [app List.length ats].
    replace (i + S n) with (S i + n) by lia. split; [reflexivity|]. split; [reflexivity|]. split; [congruence|]. split; [congruence|]. auto.
Qed.
Lemma ats_map : forall X Y (P : nat -> ref -> X -> Prop) (f : Y -> ref) (g : Y -> X) l i, (forall n y, nth_error l n = Some y -> P (i + n) (f y) (g y)) -> ats P i (map f l) (map g l).
Proof.
  intros X Y P f g l. induction l as [|y l IH]; intros i H; cbn [map ats]; [exact Logic.I|]. split; [rewrite <- (Nat.add_0_r i); apply H; reflexivity|].
  apply IH. intros n z E. replace (S i + n) with (i + S n) by lia. apply H. exact E.
Qed.
Lemma ats_ptrs : forall X (P : nat -> ref -> X -> Prop) items i xs, (forall n r x, P n r x -> exists a, r = RPtr a) -> ats P i items xs -> exists ds, items = map RPtr ds.
Proof.
  intros X P items. induction items as [|r items IH]; intros i [|x xs] H A; cbn in A; try contradiction; [exists []; reflexivity|]. destruct A as [A B].
  destruct (H _ _ _ A) as [a ->]. destruct (IH _ _ H B) as [ds ->]. exists (a :: ds). reflexivity.
Qed.
Definition unptr (r : ref) : addr := match r with RPtr p => p | RAtom _ => 0 end.
Definition addrg (g : rgroup) : addr * list addr := (unptr (fst g), map unptr (snd g)).
Lemma unptr_ptr : forall l, (forall r, In r l -> exists p, r = RPtr p) -> map RPtr (map unptr l) = l.
Proof. intros l H. induction l as [|r l IH]; [reflexivity|]. cbn [map]. rewrite IH by (intros; apply H; right; assumption). destruct (H r (or_introl eq_refl)) as [p ->]. reflexivity. Qed.
Lemma groups_ptr : forall gs, (forall r, In r (flat gs) -> exists p, r = RPtr p) -> map refg (map addrg gs) = gs /\ map RPtr (flat (map addrg gs)) = flat gs.
Proof.
  intros gs H. induction gs as [|[d t] gs IH]; [auto|]. change (flat ((d, t) :: gs)) with ((d :: t) ++ flat gs) in *.
  destruct IH as [IH1 IH2]; [intros r I; apply H; apply in_or_app; right; exact I|]. assert (H1 : forall r, In r (d :: t) -> exists p, r = RPtr p) by (intros r I; apply H; apply in_or_app; left; exact I).
  pose proof (unptr_ptr _ H1) as U. cbn [map] in U. injection U as U1 U2. cbn [map]. rewrite IH1. unfold addrg at 1, refg at 1. cbn [fst snd]. rewrite U1, U2. split; [reflexivity|].
  change (flat (addrg (d, t) :: map addrg gs)) with ((unptr d :: map unptr t) ++ flat (map addrg gs)). rewrite map_app. cbn [map]. rewrite U1, U2, IH2. reflexivity.
Qed.
Lemma map_nodup : forall (ds : list addr), NoDup (map RPtr ds) <-> NoDup ds.
Proof.
  intros ds. split; intros N.
  - apply NoDup_map_inv in N. exact N.
  - induction N as [|p ds NI N IH]; cbn; constructor; [|exact IH]. intros I. apply in_map_iff in I. destruct I as (y & E & I). injection E as <-. contradiction.
Qed.
(** ** Printing a table *)
Definition rtyped (x : jointy) (j : join ref) : join ref := MkJoin x (j_name j) (j_alias j) (j_ons j).
Definition jnone : join ref := MkJoin JInner r_none r_none [].
Lemma shown_app : forall W n t ts1 ts2, List.length ts1 = n -> shown_tables W n (ts1 ++ t :: ts2) = (ts1 ++ fst (shown_table W t) :: ts2, snd (shown_table W t)).
Proof. intros W n t ts1. revert n. induction ts1 as [|y ts1 IH]; intros n ts2 <-; [reflexivity|]. cbn [List.length app shown_tables]. rewrite (IH _ ts2 eq_refl). reflexivity. Qed.
Lemma shown_none : forall W n ts, nth_error ts n = None -> shown_tables W n ts = (ts, Ok tt).
Proof. intros W n. induction n as [|n IH]; intros [|t ts] E; cbn in *; try reflexivity; [discriminate|]. rewrite (IH _ E). reflexivity. Qed.
Lemma forall2_split : forall A B (R : A -> B -> Prop) l x l2 ys, Forall2 R (l ++ x :: l2) ys -> exists l' y l2', ys = l' ++ y :: l2' /\ List.length l' = List.length l /\ Forall2 R l l' /\ R x y /\ Forall2 R l2 l2'.
Proof.
  intros A B R l x l2 ys F. apply Forall2_app_inv_l in F. destruct F as (l1 & l3 & F1 & F2 & ->). inversion F2 as [|? y ? l2' RY F3]; subst. exists l1, y, l2'.
  split; [reflexivity|]. split; [symmetry; exact (forall2_len _ _ _ _ _ F1)|]. auto.
Qed.
Lemma joins_nodup : forall own q h k i g ds xs, numbered g (List.length ds) -> ats (fun n => join_at own q h k i (g n)) 0 (map RPtr ds) xs -> NoDup ds.
Proof.
  intros own q h k i g ds xs GI A. apply NoDup_nth_error. intros a b L E. destruct (nth_error ds a) as [p|] eqn:EA; [|apply nth_error_None in EA; lia].
  assert (RA : nth_error (map RPtr ds) a = Some (RPtr p)) by (rewrite nth_error_map, EA; reflexivity). assert (RB : nth_error (map RPtr ds) b = Some (RPtr p)) by (rewrite nth_error_map, <- E; reflexivity).
  destruct (ats_nth _ _ _ _ _ _ _ A RA) as (_ & _ & _ & x & _ & _ & _ & _ & _ & _ & (d & t1 & tj1 & o1 & ol1 & E1 & O1 & _) & _).
  destruct (ats_nth _ _ _ _ _ _ _ A RB) as (_ & _ & _ & y & _ & _ & _ & _ & _ & _ & (d' & t2 & tj2 & o2 & ol2 & E2 & O2 & _) & _).
  injection E1 as <-. injection E2 as <-. rewrite O1 in O2. injection O2 as O2. apply GI; [exact L| |exact O2]. apply nth_error_Some. rewrite <- E. discriminate.
Qed.
Lemma join_ptr : forall own q h k i (g : nat -> nat) n r x, join_at own q h k i (g n) r x -> exists a, r = RPtr a.
Proof. intros own q h k i g n r x (d & t & tj & o & ol & -> & _). eauto. Qed.
Lemma minimize_run : forall W h t js, attr h "_joins" t = Ok js -> forall l, refs_at h OList js = Ok l -> h_minimize W t h =
  match items_of l with
  | [] => (h, Ok tt)
  | _ => match r_group_joins W h (items_of l) [] with
         | Ok gs => (doh l <- alloc OList []; doh _ <- assign t "_joins" (RPtr l); for_each (h_settle_group (RPtr l)) gs) h
         | Err e => (h, Err e)
         end
  end.
Proof.
  intros W h t js A l R. unfold h_minimize. unfold hbind at 1, look at 1. rewrite A. cbn [bind]. rewrite R. cbn [bind]. destruct (items_of l) as [|r rs]; [reflexivity|].
  unfold hbind at 1, look at 1. destruct (r_group_joins W h (r :: rs) []); reflexivity.
Qed.
Lemma h_show_spec : forall W n G q k cq c p own h ts h' o, inv own h -> own q = None -> kind_of h q = Some (OInst cq) ->
  pd_at (tabsd q k c p) own h ts -> h_show W n (RPtr p) h = (h', o) ->
  acts (tabsd q k c p) G (fun own => cell own q k) q own h ts h' o (fun v y => y = shown_tables W n v).
Proof.
  intros W n G q k cq c p own h ts h' o J NQ KQ PT R. pose proof PT as (l & items & Q & A).
  unfold h_show in R. unfold hbind at 1, look at 1 in R. rewrite (parts_at_of _ _ _ _ _ _ _ (proj1 Q)) in R.
  destruct (nth_error items n) as [r|] eqn:EN.
  2: { injection R as <- <-. apply acts_same; auto. intros _ v y -> PV. cbn [tabsd pd_val] in PV. apply shown_none. apply nth_error_None. apply nth_error_None in EN.
       rewrite <- (forall2_len _ _ _ _ _ PV), <- (ats_len _ _ _ _ A). exact EN. }
  destruct (ats_nth _ _ _ _ _ _ _ A EN) as (items1 & items2 & ts1 & t & ts2 & -> & -> & LI & LT1 & A1 & AT & A2). cbn [Nat.add] in AT, A2.
  pose proof AT as AT0. destruct AT as (ta & ja & js & g & GI & -> & OT & OJ & GT & GJ & CN & CA & AJ).
  rewrite (minimize_run _ _ _ _ (joins_attr _ _ _ _ _ GT) _ (refs_list _ _ _ GJ)), items_item in R.
  destruct (ats_ptrs _ _ _ _ _ (fun a b x => join_ptr own q h k n g a b x) AJ) as [ds ->]. rewrite map_length in GI. pose proof (joins_nodup _ _ _ _ _ _ _ _ GI AJ) as ND.
  assert (SEES : forall vjs, Forall2 (join_val h) (tb_joins t) vjs -> Forall2 (sees h) (map RPtr ds) vjs).
  { intros vjs F. assert (X : Forall2 (fun r x => see_join h r = joinM (view h) x) (map RPtr ds) (tb_joins t)). { eapply ats_forall2; [|exact AJ]. intros m r x JA. exact (join_read _ _ _ _ _ _ _ _ _ JA). }
    clear - F X. revert F. generalize dependent vjs. induction X as [|a b la lb E X IH]; intros vjs F; inversion F as [|? v ? vs' V F']; subst; constructor; [|apply IH; exact F'].
    unfold sees. rewrite E. apply join_val_read. exact V. }
  assert (GV : forall vt, tab_val h t vt -> match r_group_joins W h (map RPtr ds) [] with
      | Ok gs => exists vgs, group_joins (w_str W) (tb_joins vt) [] = Ok vgs /\ Forall2 (grel h) gs vgs
      | Err e => group_joins (w_str W) (tb_joins vt) [] = Err e end).
  { intros vt (_ & _ & F). apply group_vals; [apply SEES; exact F|constructor]. }
  destruct (map RPtr ds) as [|r0 rs0] eqn:EDS.
  { injection R as <- <-. apply acts_same; auto. intros _ v y -> PV. cbn [tabsd pd_val] in PV. apply forall2_split in PV. destruct PV as (v1 & vt & v2 & -> & LV & _ & TV & _).
    rewrite shown_app by congruence. destruct TV as (_ & _ & F). destruct (tb_joins t); [|contradiction AJ]. destruct vt as [vn va vj]. cbn [tb_joins] in F. inversion F; subst. reflexivity. }
  rewrite <- EDS in *. clear r0 rs0 EDS.
  destruct (r_group_joins W h (map RPtr ds) []) as [gs|e] eqn:GR.
  2: { injection R as <- <-. apply acts_same; auto. intros _ v y -> PV. cbn [tabsd pd_val] in PV. apply forall2_split in PV. destruct PV as (v1 & vt & v2 & -> & LV & _ & TV & _).
    rewrite shown_app by congruence. specialize (GV _ TV). unfold shown_table, minimize. rewrite GV. reflexivity. }
  pose proof (group_flat _ _ _ _ _ GR) as PM. rewrite app_nil_r in PM.
  destruct (groups_ptr gs) as [EG EF]. { intros r I. pose proof (Permutation_in _ PM I) as I'. apply in_map_iff in I'. destruct I' as (x & <- & _). eauto. }
  set (ag := map addrg gs) in *. rewrite <- EG in R, GV. rewrite <- EF in PM.
  assert (IN : forall x, In x (flat ag) <-> In x ds).
  { intros x. split; intros I.
    - assert (I' : In (RPtr x) (map RPtr ds)) by (eapply Permutation_in; [exact PM|apply in_map; exact I]). apply in_map_iff in I'. destruct I' as (y & E & I'). injection E as <-. exact I'.
    - assert (I' : In (RPtr x) (map RPtr (flat ag))) by (eapply Permutation_in; [symmetry; exact PM|apply in_map; exact I]). apply in_map_iff in I'. destruct I' as (y & E & I'). injection E as <-. exact I'. }
  assert (NF : NoDup (flat ag)) by (apply map_nodup; eapply Permutation_NoDup; [symmetry; exact PM|apply map_nodup; exact ND]).
  clearbody ag. clear EG EF PM GR gs.
  set (at_ := fun x => nth (pos x ds) (tb_joins t) jnone). set (ty := fun x => j_type (at_ x)).
  assert (JD : forall x, In x ds -> join_at own q h k n (g (pos x ds)) (RPtr x) (at_ x) /\ pos x ds < List.length ds /\ In (at_ x) (tb_joins t)).
  { intros x I. pose proof (pos_in _ _ I) as E. assert (E' : nth_error (map RPtr ds) (pos x ds) = Some (RPtr x)) by (rewrite nth_error_map, E; reflexivity).
    destruct (ats_nth _ _ _ _ _ _ _ AJ E') as (i1 & i2 & xs1 & y & xs2 & _ & EX & _ & LX & _ & P & _). unfold at_. rewrite EX, app_nth2 by lia. replace (pos x ds - List.length xs1) with 0 by lia. cbn [nth].
    split; [exact P|]. split; [apply nth_error_Some; rewrite E; discriminate|]. apply in_or_app. right. left. reflexivity. }
  set (z := List.length h) in *.
  assert (LT : ta < z) by (eapply get_lt; eauto). assert (LJ : ja < z) by (eapply get_lt; eauto).
  set (h1 := h ++ [MkObj OList []]) in *. set (w1 := upd own z (q, (k, PJoins n))).
  set (h2 := put h1 ta (tab_obj (tb_name t) (tb_alias t) z)).
  assert (L1 : List.length h1 = S z) by (unfold h1; rewrite app_len; reflexivity).
  assert (F1 : after G (cell own q k) own h w1 h1). { eapply after_alloc_in; eauto; [discriminate|intros ? ? []]. }
  assert (OLD : forall b, b < z -> get h1 b = get h b) by (intros b LB; apply get_ext; exact LB).
  assert (GZ : get h1 z = Some (MkObj OList [])) by apply get_new.
  assert (O1 : forall b x, own b = Some x -> w1 b = Some x). { intros b x E. unfold w1. rewrite upd_other; [exact E|]. intros ->. rewrite (fresh_own own h z J (Nat.le_refl _)) in E. discriminate. }
  assert (DJ : forall x, In x ds -> exists tx ox, get h x = Some (join_obj (ty x) tx ox) /\ own x = Some (q, (k, PJoin n (g (pos x ds)))) /\ own tx = Some (q, (k, PJTab n (g (pos x ds)))) /\ own ox = Some (q, (k, POns n (g (pos x ds))))).
  { intros x I. destruct (JD x I) as [(d & tx & tj & ox & ol & E & OD & OX & _ & OO & _ & GD & _) _]. injection E as <-. exists tx, ox. auto. }
  assert (NTA : forall x, In x ds -> x <> ta). { intros x I ->. destruct (DJ ta I) as (tx & ox & _ & OX & _). rewrite OT in OX. discriminate. }
  assert (NZ : forall x, In x ds -> x <> z). { intros x I ->. destruct (DJ z I) as (tx & ox & GX & _). apply get_lt in GX. unfold z in GX. lia. }
  assert (G2 : forall b, b < z -> b <> ta -> get h2 b = get h b). { intros b LB NB. unfold h2. rewrite get_put_other by exact NB. apply OLD. exact LB. }
  assert (G2Z : get h2 z = Some (MkObj OList (map item []))). { unfold h2. rewrite get_put_other by lia. exact GZ. }
  assert (LDS : forall x, In x ds -> x < z). { intros x I. destruct (DJ x I) as (tx & ox & GX & _). apply get_lt in GX. exact GX. }
  destruct (settles_run ty ag h2 z [] G2Z) as (h3 & R3 & G3Z & L3 & T3 & X3 & Y3).
  { apply Forall_forall. intros x I. apply IN in I. destruct (DJ x I) as (tx & ox & GX & _). exists tx, ox. rewrite G2; auto. }
  { exact NF. }
  { intros I. apply IN in I. exact (NZ _ I eq_refl). }
  assert (RR : h' = h3 /\ o = Ok tt).
  { assert (AS : assign (RPtr ta) "_joins" (RPtr z) h1 = (h2, Ok tt)). { unfold assign, change. rewrite OLD by exact LT. rewrite GT. reflexivity. }
    unfold hbind at 1, alloc at 1 in R. fold z h1 in R. unfold hbind at 1 in R. rewrite AS in R. rewrite R3 in R. injection R as <- <-. auto. }
  destruct RR as [-> ->]. clear R. set (out := flat_map (psettle ty) ag) in *.
  assert (OUT : forall x y, In (x, y) out -> In x ds) by (intros x y I; apply IN; eapply settles_sub; exact I).
  assert (NO : NoDup (map fst out)) by (apply settles_nodup; exact NF).
  assert (F2 : after G (cell w1 q k) w1 h1 w1 h3).
  { apply after_many; [apply F1|rewrite L3; unfold h2; apply put_length|].
    intros b. destruct (Nat.eq_dec b z) as [->|NBZ]; [|destruct (Nat.eq_dec b ta) as [->|NBT]; [|destruct (in_dec Nat.eq_dec b ds) as [IB|IB]]].
    - right. split; [eexists; apply upd_same|]. eexists q, _, OList, [], _. split; [apply upd_same|]. split; [exact GZ|]. split; [exact G3Z|]. cbn [app].
      intros a r I. apply in_map_iff in I. destruct I as (r' & E & I). injection E as _ <-. apply in_map_iff in I. destruct I as (x & <- & I). apply in_map_iff in I. destruct I as ([x' y] & <- & I).
      pose proof (OUT _ _ I) as ID. cbn. destruct (DJ x' ID) as (_ & _ & _ & OX & _). rewrite (O1 _ _ OX). split; [rewrite L1; specialize (LDS _ ID); lia|reflexivity].
    - right. split; [eexists; apply O1; exact OT|]. eexists q, _, _, _, _. split; [apply O1; exact OT|]. split; [rewrite OLD by exact LT; exact GT|].
      split; [rewrite X3; [unfold h2; apply get_put_same; lia|lia|intros I; apply IN in I; exact (NTA _ I eq_refl)]|].
      intros a r [E|[E|[E|[]]]]; injection E as <- <-; try (apply okr_mine; eapply okr_keeps; [apply F1|assumption]; fail).
      cbn. split; [lia|]. unfold w1. rewrite upd_same. reflexivity.
    - right. destruct (DJ b IB) as (tx & ox & GX & OX & OTX & OOX). split; [eexists; apply O1; exact OX|]. destruct (Y3 b (proj2 (IN b) IB)) as (x & t' & o' & GB & GB').
      rewrite G2 in GB by auto. rewrite GX in GB. injection GB as <- <-. eexists q, _, _, _, _. split; [apply O1; exact OX|]. split; [rewrite OLD by auto; exact GX|]. split; [exact GB'|].
      intros a r I. cbn in I. repeat (destruct I as [E|I]; [injection E as <- <-; try exact Logic.I|]); [| |contradiction].
      + cbn. rewrite (O1 _ _ OTX). split; [|reflexivity]. rewrite L1. pose proof (owned_lt _ _ _ _ J OTX). lia.
      + cbn. rewrite (O1 _ _ OOX). split; [|reflexivity]. rewrite L1. pose proof (owned_lt _ _ _ _ J OOX). lia.
    - left. rewrite X3; [unfold h2; apply get_put_other; exact NBT|exact NBZ|intros I; apply IB; apply IN; exact I]. }
  pose proof (after_cells _ _ _ _ _ _ _ _ _ F1 F2) as AF. pose proof (keeps_after _ _ _ _ _ _ AF) as KP.
  assert (SAME : forall b s, own b = Some (q, (k, s)) -> s <> PItem n -> (forall j, s <> PJoin n j) -> get h3 b = get h b).
  { intros b s OB N1 N2. pose proof (owned_lt _ _ _ _ J OB) as LB. rewrite X3; [apply G2; [exact LB|]|unfold z; lia|].
    - intros ->. rewrite OT in OB. injection OB as <-. contradiction N1; reflexivity.
    - intros I. apply IN in I. destruct (DJ b I) as (_ & _ & _ & OX & _). rewrite OX in OB. injection OB as <-. eapply N2; reflexivity. }
  assert (FX : forall X : place -> Prop, ~ X (PItem n) -> (forall j, ~ X (PJoin n j)) -> fixed own q k X h h3).
  { intros X N1 N2 b s HS OB. apply (SAME b s OB); [intros ->; exact (N1 HS)|intros j ->; exact (N2 _ HS)]. }
  set (xs' := map (fun e => rtyped (snd e) (at_ (fst e))) out).
  exists w1, (ts1 ++ MkTable (tb_name t) (tb_alias t) xs' :: ts2). split; [exact AF|]. split.
  - exists l, (items1 ++ RPtr ta :: items2). split; [eapply qparts_frame; [exact KP| |exact Q]; apply FX; [discriminate|intros; discriminate]|].
    apply ats_app; [congruence|]. split; [|split].
    + eapply ats_impl; [|exact A1]. intros i0 r x _ LI0. apply tab_frame; [exact KP|]. apply FX; cbn; intros; intros E; injection E as E; lia.
    + cbn [Nat.add]. rewrite LI. exists ta, z, (map RPtr (map fst out)), (fun i => g (pos (nth i (map fst out) 0) ds)). cbn [tb_name tb_alias tb_joins].
      split.
      { rewrite map_length. intros i j Li Lj E. assert (Di : In (nth i (map fst out) 0) ds). { pose proof (nth_In (map fst out) 0 Li) as I. apply in_map_iff in I. destruct I as ([x y] & E0 & I). rewrite <- E0. exact (OUT _ _ I). }
        assert (Dj : In (nth j (map fst out) 0) ds). { pose proof (nth_In (map fst out) 0 Lj) as I. apply in_map_iff in I. destruct I as ([x y] & E0 & I). rewrite <- E0. exact (OUT _ _ I). }
        apply GI in E; [|apply JD; exact Di|apply JD; exact Dj]. pose proof (pos_in _ _ Di) as Pi. pose proof (pos_in _ _ Dj) as Pj. rewrite E, Pj in Pi. injection Pi as Pi.
        apply (proj1 (NoDup_nth (map fst out) 0) NO); [exact Li|exact Lj|symmetry; exact Pi]. }
      split; [reflexivity|]. split; [apply O1; exact OT|]. split; [apply upd_same|].
      split; [rewrite X3; [unfold h2; apply get_put_same; lia|lia|intros I; apply IN in I; exact (NTA _ I eq_refl)]|].
      split; [exact G3Z|]. split; [eapply okr_keeps; [exact KP|exact CN]|]. split; [eapply okr_keeps; [exact KP|exact CA]|].
      unfold xs'. rewrite map_map. apply ats_map. intros m [x y] EM. cbn [Nat.add fst snd].
      assert (Em : nth m (map fst out) 0 = x). { apply nth_error_nth. rewrite nth_error_map, EM. reflexivity. } rewrite Em.
      pose proof (nth_error_In _ _ EM) as IM. pose proof (OUT _ _ IM) as ID. destruct (JD x ID) as [(d & tx & tj & ox & ol & E & OD & OX & OTJ & OO & OL & GD & GX & GTJ & [P1 P2] & C1 & C2 & C3) _]. injection E as <-.
      exists x, tx, tj, ox, ol. cbn [rtyped j_type j_name j_alias j_ons]. split; [reflexivity|]. do 5 (split; [apply O1; assumption|]).
      split. { destruct (T3 x y IM) as (t' & o' & GB & GB'). rewrite G2 in GB by auto. rewrite GD in GB. injection GB as <- <-. exact GB'. }
      split; [rewrite (SAME _ _ OX); [exact GX|discriminate|discriminate]|]. split; [rewrite (SAME _ _ OTJ); [exact GTJ|discriminate|discriminate]|].
      split; [split; [rewrite (SAME _ _ OO); [exact P1|discriminate|discriminate]|rewrite (SAME _ _ OL); [exact P2|discriminate|discriminate]]|].
      split; [eapply okr_keeps; [exact KP|exact C1]|]. split; [eapply okr_keeps; [exact KP|exact C2]|eapply oks_keeps; [exact KP|exact C3]].
    + eapply ats_impl; [|cbn [Nat.add]; rewrite LI; exact A2]. intros i0 r x LI0 _. apply tab_frame; [exact KP|]. apply FX; cbn; intros; intros E; injection E as E; lia.
  - intros NG v y -> PV AX. cbn [tabsd pd_val pd_refs] in *. pose proof (quiet _ _ _ _ _ _ _ NG AF) as AF'.
    pose proof (tabs_okr _ _ _ _ _ _ _ A) as OKS.
    destruct (kept_tabs own q k h w1 h3 _ v J AF' OKS AX PV) as [T T'].
    apply forall2_split in PV. destruct PV as (v1 & vt & v2 & -> & LV & _ & TV & _). apply forall2_split in T. destruct T as (v1' & vt' & v2' & EV & LV' & T1 & T2 & T3').
    assert (X : v1 = v1' /\ vt = vt' /\ v2 = v2').
    { clear - EV LV LV'. assert (LL : List.length v1 = List.length v1') by congruence. clear LV LV'. revert v1' EV LL. induction v1 as [|a v1 IH]; intros [|b v1'] EV LL; cbn in *; try discriminate; injection EV as E EV; [auto|]. destruct (IH _ EV) as (-> & -> & ->); [lia|]. subst; auto. }
    destruct X as (<- & <- & <-). clear EV LV'.
    rewrite shown_app by congruence. destruct (GV _ TV) as (vgs & EG & FG). unfold shown_table, minimize. rewrite EG. cbn [bind fst snd].
    assert (REFS : forall x r, In x (tb_joins t) -> In r (join_refs x) -> okr own h r /\ avoids h q r).
    { intros x r I1 I2. assert (I : In r (flat_map tab_refs (ts1 ++ t :: ts2))). { apply in_flat_map. exists t. split; [apply in_or_app; right; left; reflexivity|]. right. right. apply in_flat_map. eauto. }
      rewrite Forall_forall in OKS, AX. auto. }
    assert (KS : forall x r w, In x (tb_joins t) -> In r (join_refs x) -> stands h r w -> stands h3 r w). { intros x r w I1 I2 S. destruct (REFS _ _ I1 I2) as [B1 B2]. exact (kept_stands _ _ _ _ _ _ _ _ J AF' B1 B2 S). }
    split; [|split; [reflexivity|]].
    + apply Forall2_app; [exact T1|]. constructor; [|exact T3']. destruct T2 as (T21 & T22 & _). split; [exact T21|]. split; [exact T22|]. cbn [tb_joins].
      assert (OO : Forall2 (out_rel h) out (flat_map settle_group vgs)).
      { assert (HT : forall x v, In x (flat ag) -> sees h (RPtr x) v -> j_type v = ty x).
        { intros x v I S. apply IN in I. destruct (JD x I) as [JA _]. unfold sees in S. unfold see_join in S. rewrite (join_read _ _ _ _ _ _ _ _ _ JA) in S. apply join_val_read in S. destruct S as [S _]. symmetry. exact S. }
        unfold out. clear - FG HT. revert HT. generalize ty as ty0. intros ty0 HT. clear ty at_. revert vgs FG. induction ag as [|[d t0] ag' IH]; intros vgs FG; inversion FG as [|? [vd vt] ? vgs' G1 FG']; subst; [constructor|]. cbn [flat_map].
        change (flat ((d, t0) :: ag')) with ((d :: t0) ++ flat ag') in HT. apply Forall2_app.
        - apply settle_vals; [intros x v I; apply HT; apply in_or_app; left; exact I|exact G1].
        - apply IH; [intros x v I; apply HT; apply in_or_app; right; exact I|exact FG']. }
      unfold xs'. clear - OO OUT JD KS. revert OO. generalize (flat_map settle_group vgs). intros ws OO. induction OO as [|[x y] w out' ws' (vx & S & ->) OO IH]; [constructor|]. cbn [map]. constructor.
      * destruct (JD x (OUT x y (or_introl eq_refl))) as (JA & _ & IX). unfold sees, see_join in S. cbn [fst snd] in *. rewrite (join_read _ _ _ _ _ _ _ _ _ JA) in S. apply join_val_read in S.
        destruct S as (_ & S1 & S2 & S3). unfold join_val, rtyped, typed. cbn [j_type j_name j_alias j_ons]. split; [reflexivity|].
        split; [eapply KS; [exact IX|left; reflexivity|exact S1]|]. split; [eapply KS; [exact IX|right; left; reflexivity|exact S2]|].
        assert (KS' : forall r w, In r (j_ons (at_ x)) -> stands h r w -> stands h3 r w) by (intros r w I; apply (KS _ _ _ IX); right; right; exact I).
        clear - S3 KS'. induction S3; constructor; [apply KS'; [left; reflexivity|assumption]|]. apply IHS3. intros; apply KS'; [right; assumption|assumption].
      * apply IH. intros x' y' I. apply (OUT x' y'). right. exact I.
    + rewrite flat_map_app in T' |- *. apply Forall_app in T'. destruct T' as [T'1 T'2]. apply Forall_app. split; [exact T'1|].
      cbn [flat_map] in T'2 |- *. apply Forall_app in T'2. destruct T'2 as [T'2 T'3]. apply Forall_app. split; [|exact T'3].
      unfold tab_refs in *. cbn [tb_name tb_alias tb_joins]. inversion T'2 as [|? ? U1 U2]; subst. inversion U2 as [|? ? U3 U4]; subst. constructor; [exact U1|]. constructor; [exact U3|].
      apply Forall_forall. intros r I. apply in_flat_map in I. destruct I as (x & IX & IR). unfold xs' in IX. apply in_map_iff in IX. destruct IX as ([d e] & <- & IO).
      destruct (JD d (OUT _ _ IO)) as (_ & _ & ID). rewrite Forall_forall in U4. apply U4. apply in_flat_map. exists (at_ d). split; [exact ID|exact IR].
Qed.
