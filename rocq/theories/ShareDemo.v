(** A program with shared objects, for examples. *)
From Coq Require Import Lia.
From Verif Require Import Base NumFmt Value Backend Eq Render ParseArgs Build Queries Demo Heap SpecHeap HeapBuild SpecShare PfUse.
Open Scope string_scope.
Open Scope list_scope.
Open Scope nat_scope.

(** ** Checking what can be reached *)
Definition within_of (h : heap) (S : list addr) : bool :=
  forallb (fun p => match get h p with
                    | Some (MkObj _ l) => forallb (fun a => match snd a with RAtom _ => true | RPtr x => existsb (Nat.eqb x) S end) l
                    | None => true
                    end) S.
Lemma within_reach : forall h S a b, within_of h S = true -> reach h a b -> forall p x, a = RPtr p -> b = RPtr x -> In p S -> In x S.
Proof.
  intros h S a b W R. induction R as [r|p r s F R IH]; intros p0 x E E' I.
  - assert (p0 = x) by congruence. subst. exact I.
  - injection E as ->. subst s. destruct F as (k & l & a & G & IA). unfold within_of in W. rewrite forallb_forall in W. specialize (W _ I). rewrite G in W. rewrite forallb_forall in W. specialize (W _ IA). cbn in W.
    destruct r as [at_|y]; [inversion R|]. apply existsb_exists in W. destruct W as (z & IZ & EZ). apply Nat.eqb_eq in EZ. subst z. exact (IH _ _ eq_refl eq_refl IZ).
Qed.
Fixpoint spread (h : heap) (n : nat) (S : list addr) : list addr :=
  match n with
  | O => S
  | Datatypes.S n => spread h n (nodup Nat.eq_dec (S ++ flat_map (fun p => match get h p with
      | Some (MkObj _ l) => flat_map (fun a => match snd a with RPtr x => [x] | RAtom _ => [] end) l | None => [] end) S))
  end.
Definition within_from (h : heap) (r : ref) : list addr := match r with RPtr p => spread h 30 [p] | RAtom _ => [] end.
Definition reach_ok (h : heap) (ok : addr -> bool) (r : ref) : bool :=
  match r with
  | RAtom _ => true
  | RPtr p => let S := within_from h r in existsb (Nat.eqb p) S && within_of h S && forallb ok S
  end.
Local Opaque within_from.
Lemma reach_checked : forall h ok r p, reach_ok h ok r = true -> reach h r (RPtr p) -> ok p = true.
Proof.
  intros h ok r p C R. destruct r as [a|x]; [inversion R|]. unfold reach_ok in C. apply andb_prop in C. destruct C as [C O]. apply andb_prop in C. destruct C as [I W].
  apply existsb_exists in I. destruct I as (z & IZ & EZ). apply Nat.eqb_eq in EZ. subst z. rewrite forallb_forall in O. apply O. exact (within_reach _ _ _ _ W R _ _ eq_refl eq_refl IZ).
Qed.
Local Transparent within_from.
Definition is_gen (h : heap) (p : addr) : bool := match get h p with Some (MkObj OGen _) => true | _ => false end.
Lemma plain_checked : forall h c, forallb (reach_ok h (fun p => negb (is_gen h p))) (call_refs c) = true -> plain h c.
Proof.
  intros h c C r p I R K. rewrite forallb_forall in C. pose proof (reach_checked _ _ _ _ (C _ I) R) as X. cbn beta in X. unfold is_gen in X. unfold kind_of in K. destruct (get h p) as [[k l]|]; [|discriminate]. injection K as ->. discriminate.
Qed.
Lemma avoids_checked : forall h q r, reach_ok h (fun p => negb (Nat.eqb p q)) r = true -> ~ reach h r (RPtr q).
Proof. intros h q r C R. pose proof (reach_checked _ _ _ _ C R) as X. cbn beta in X. rewrite Nat.eqb_refl in X. discriminate. Qed.
Lemma apart_checked : forall h q c, forallb (reach_ok h (fun p => negb (Nat.eqb p q))) (call_refs c) = true -> apart h q c.
Proof. intros h q c C r I. rewrite forallb_forall in C. apply avoids_checked. apply C. exact I. Qed.
Definition unseen_q (h : heap) (q : addr) : bool :=
  forallb (fun o => forallb (fun a => match snd a with RPtr x => negb (Nat.eqb x q) | RAtom _ => true end) (o_refs o)) h.
Lemma unlooped_checked : forall h q, unseen_q h q = true -> unlooped h q.
Proof.
  intros h q C. apply unseen_unlooped. intros p (k & l & a & G & I). unfold unseen_q in C. rewrite forallb_forall in C. specialize (C _ (nth_error_In _ _ G)). rewrite forallb_forall in C. specialize (C _ I). cbn in C. rewrite Nat.eqb_refl in C. discriminate.
Qed.
Lemma stands_checked : forall h r v, view h r = Ok v -> stands h r v.
Proof. intros h r v E. exists (S (List.length h)). exact E. Qed.

(** ** The program

    ids = [1, 2]; old = {'t': 'old'};
    sub = select('id').from_('u').where('k', ids)
    main = select('a').from_('t').where('x', sub) *)
Definition W0 : world := demoW BMySql.
Definition aint (z : Z) : ref := av (VInt z).
Definition run {A} (m : hm A) (h : heap) : heap := fst (m h).
Definition ids : ref := RPtr 0.
Definition old : ref := RPtr 1.
Definition hA : heap := [MkObj OList [(LItem, aint 1); (LItem, aint 2)]].
Definition hB : heap := hA ++ [MkObj ODict [(LKey, astr "t"); (LVal, astr "old")]].
Definition sub : addr := 20.
Definition hC : heap := Eval vm_compute in run new_select hB.
Definition cs_sub : list hcall := [HSel (HSColumns [astr "id"] []); HSel (HSFrom [astr "u"] []); HSel (HSWhere [astr "k"; ids] [])].
Definition hD : heap := Eval vm_compute in run (chain W0 sub cs_sub) hC.
Definition main : addr := Eval vm_compute in List.length hD + 18.
Definition hE : heap := Eval vm_compute in run new_select hD.
Definition cs_main : list hcall := [HSel (HSColumns [astr "a"] []); HSel (HSFrom [astr "t"] [])].
Definition hF : heap := Eval vm_compute in run (chain W0 main cs_main) hE.
Definition nested : hcall := HSel (HSWhere [astr "x"; RPtr sub] []).
Definition hG : heap := Eval vm_compute in run (call W0 main nested) hF.
Definition H0 : list ref := [RPtr main; RPtr sub; old; ids].
Definition Q0 : list (addr * qkind) := [(main, QSelect); (sub, QSelect)].
Definition text_at (h : heap) (r : ref) : option str := match view h r with Ok v => match text (demo BMySql) v with Ok t => Some t | Err _ => None end | Err _ => None end.
Lemma chain_reached : forall W q cs h H qs h' , reached h H qs -> Forall (fun c => In (q, of_kind c) qs /\ Forall (given H) (call_refs c)) cs -> run (chain W q cs) h = h' -> reached h' H qs.
Proof.
  intros W q cs. induction cs as [|c cs IH]; intros h H qs h' R F E.
  - cbn in E. subst. exact R.
  - inversion F as [|? ? [I G] F']; subst. unfold run. cbn [chain]. unfold hbind. destruct (call W q c h) as [h1 o] eqn:C. assert (R1 : reached h1 H qs) by (eapply calls; eauto).
    destruct o as [u|e]; [|exact R1]. eapply IH; [exact R1|exact F'|reflexivity].
Qed.
Ltac is_given := repeat constructor; first [left; eexists; reflexivity|right; cbn; tauto].
Ltac all_given := repeat (constructor; [split; [cbn; tauto|cbn; repeat (constructor; [first [left; eexists; reflexivity|right; cbn; tauto]|]); constructor]|]); constructor.
Lemma reachedB : reached hB [old; ids] [].
Proof.
  unfold hB. apply (makes hA [ids] []); [|intros a r [E|[E|[]]]; injection E as <- <-; left; eexists; reflexivity].
  apply (makes [] [] [] OList); [apply at_start|]. intros a r [E|[E|[]]]; injection E as <- <-; left; eexists; reflexivity.
Qed.
Lemma reachedD : reached hD [RPtr sub; old; ids] [(sub, QSelect)].
Proof.
  eapply (chain_reached W0 sub cs_sub hC); [|all_given|vm_compute; reflexivity]. eapply (creates hB); [exact reachedB|vm_compute; reflexivity].
Qed.
Lemma reachedF : reached hF H0 Q0.
Proof.
  eapply (chain_reached W0 main cs_main hE); [|all_given|vm_compute; reflexivity]. eapply (creates hD); [exact reachedD|vm_compute; reflexivity].
Qed.
Lemma reachedG : reached hG H0 Q0.
Proof.
  eapply (chain_reached W0 main [nested] hF); [exact reachedF|all_given|vm_compute; reflexivity].
Qed.
Lemma spread_reach : forall h n p x, In x (spread h n [p]) -> reach h (RPtr p) (RPtr x).
Proof.
  assert (X : forall h n S p, (forall x, In x S -> reach h (RPtr p) (RPtr x)) -> forall x, In x (spread h n S) -> reach h (RPtr p) (RPtr x)).
  { intros h n. induction n as [|n IH]; intros S p F x I; [apply F; exact I|]. cbn [spread] in I. eapply IH; [|exact I]. intros y Y. apply nodup_In in Y. apply in_app_or in Y. destruct Y as [Y|Y]; [apply F; exact Y|].
    apply in_flat_map in Y. destruct Y as (z & IZ & Y). destruct (get h z) as [[k l]|] eqn:G; [|contradiction]. apply in_flat_map in Y. destruct Y as ([a r] & IA & Y). cbn in Y. destruct r as [v|w]; [contradiction|]. destruct Y as [->|[]].
    eapply reach_then; [apply F; exact IZ|]. exists k, l, a. auto. }
  intros h n p x I. eapply X; [|exact I]. intros y [->|[]]. apply reach_refl.
Qed.
