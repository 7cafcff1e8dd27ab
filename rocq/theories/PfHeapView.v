(** Lemmas: reading values out of the heap does not depend on the bound. *)
From Coq Require Import Lia.
From Verif Require Import Base NumFmt Value Heap SpecHeap PfHeap HeapBuild.
Open Scope nat_scope.

(** [y] is [x] unless [x] is an exception. *)
Definition rle {A} (x y : res A) : Prop := forall v, x = Ok v -> y = Ok v.
Lemma rle_refl : forall A (x : res A), rle x x.
Proof. intros A x v H. exact H. Qed.
Lemma rle_bad : forall A (y : res A) e, rle (Err e) y.
Proof. intros A y e v H. discriminate. Qed.
Lemma rle_bind : forall A B (x y : res A) (f g : A -> res B), rle x y -> (forall a, rle (f a) (g a)) -> rle (bind x f) (bind y g).
Proof. intros A B [a|e] y f g H K v E; [|discriminate]. rewrite (H a eq_refl). cbn [bind] in *. apply K. exact E. Qed.
Lemma rle_rmap : forall A B (x y : res A) (f : A -> B), rle x y -> rle (rmap f x) (rmap f y).
Proof. intros A B [a|e] y f H v E; [|discriminate]. rewrite (H a eq_refl). exact E. Qed.
Lemma rle_mapM : forall A B (f g : A -> res B) l, (forall a, rle (f a) (g a)) -> rle (mapM f l) (mapM g l).
Proof.
  intros A B f g l H. induction l as [|a l IH]; [apply rle_refl|]. intros v E. cbn [mapM] in *.
  destruct (f a) eqn:F; [|discriminate]. rewrite (H a _ F). destruct (mapM f l) eqn:M; [|discriminate]. rewrite (IH _ eq_refl). exact E.
Qed.

Section Mono.
  Variable h : heap.
  Variable D D' : ref -> res val.
  Hypothesis DD : forall r, rle (D r) (D' r).
  Ltac mono := repeat first
    [ apply rle_refl | apply DD | apply rle_bad
    | apply rle_bind; [|intros]
    | apply rle_rmap
    | apply rle_mapM; intros
    | match goal with |- rle (if ?b then _ else _) _ => destruct b end
    | match goal with |- rle (match ?x with _ => _ end) _ => destruct x end
    | match goal with |- rle ((fun _ => _) _) _ => cbv beta end ].
  Lemma mo_column : forall r, rle (d_column h D r) (d_column h D' r).
  Proof. intros. unfold d_column. mono. Qed.
  Lemma mo_columns : forall r, rle (d_columns h D r) (d_columns h D' r).
  Proof. intros. unfold d_columns. apply rle_bind; [apply rle_refl|]. intros. apply rle_mapM. apply mo_column. Qed.
  Lemma mo_order : forall r, rle (d_order h D r) (d_order h D' r).
  Proof. intros. unfold d_order. mono. Qed.
  Lemma mo_orders : forall c r, rle (d_orders h D c r) (d_orders h D' c r).
  Proof. intros. unfold d_orders. apply rle_bind; [apply rle_refl|]. intros. apply rle_mapM. apply mo_order. Qed.
  Lemma mo_named : forall r, rle (d_named h D r) (d_named h D' r).
  Proof. intros. unfold d_named. mono. Qed.
  Lemma mo_conds : forall c r, rle (d_conds h D c r) (d_conds h D' c r).
  Proof. intros. unfold d_conds. mono. Qed.
  Lemma mo_join : forall r, rle (d_join h D r) (d_join h D' r).
  Proof.
    intros. unfold d_join. do 2 (apply rle_bind; [apply rle_refl|intros]). apply rle_bind; [apply rle_refl|intros].
    apply rle_bind; [apply mo_named|intros]. do 3 (apply rle_bind; [apply rle_refl|intros]).
    apply rle_bind; [apply mo_conds|intros]. apply rle_refl.
  Qed.
  Lemma mo_table : forall r, rle (d_table h D r) (d_table h D' r).
  Proof.
    intros. unfold d_table. apply rle_bind; [apply mo_named|intros]. do 2 (apply rle_bind; [apply rle_refl|intros]).
    apply rle_bind; [apply rle_mapM, mo_join|intros]. apply rle_refl.
  Qed.
  Lemma mo_tables : forall c r, rle (d_tables h D c r) (d_tables h D' c r).
  Proof. intros. unfold d_tables. apply rle_bind; [apply rle_refl|intros]. apply rle_mapM, mo_table. Qed.
  Lemma mo_opt : forall r, rle (d_opt D r) (d_opt D' r).
  Proof. intros. unfold d_opt. apply rle_bind; [apply DD|intros; apply rle_refl]. Qed.
  Lemma mo_outfile : forall r, rle (d_outfile h D r) (d_outfile h D' r).
  Proof.
    intros. unfold d_outfile. apply rle_bind; [apply rle_refl|intros].
    do 4 (apply rle_bind; [apply rle_refl|intros]; apply rle_bind; [apply mo_opt|intros]). apply rle_refl.
  Qed.
  Lemma mo_select : forall r, rle (d_select h D r) (d_select h D' r).
  Proof.
    intros. unfold d_select.
    repeat first [apply mo_columns | apply mo_tables | apply mo_conds | apply mo_orders | apply mo_outfile | apply rle_refl | apply rle_bind; [|intros]].
  Qed.
  Lemma mo_insert : forall r, rle (d_insert h D r) (d_insert h D' r).
  Proof.
    intros. unfold d_insert.
    repeat first [apply mo_columns | apply mo_tables | apply mo_conds | apply rle_refl | apply rle_bind; [|intros] | apply rle_mapM; intros].
  Qed.
  Lemma mo_update : forall r, rle (d_update h D r) (d_update h D' r).
  Proof.
    intros. unfold d_update. repeat first [apply mo_tables | apply mo_conds | apply rle_refl | apply rle_bind; [|intros]].
  Qed.
  Lemma mo_delete : forall r, rle (d_delete h D r) (d_delete h D' r).
  Proof.
    intros. unfold d_delete. repeat first [apply mo_tables | apply mo_conds | apply rle_refl | apply rle_bind; [|intros]].
  Qed.
  Lemma mo_inst : forall c r, rle (d_inst h D c r) (d_inst h D' c r).
  Proof.
    intros c r. unfold d_inst, d_union, d_condition, d_coc, d_convert.
    destruct c; repeat first
      [ apply rle_refl | apply rle_rmap; first [apply mo_select | apply mo_insert | apply mo_update | apply mo_delete]
      | apply mo_columns | apply mo_orders | apply mo_conds | apply DD | apply rle_bind; [|intros] ].
  Qed.
  Lemma mo_body : forall r, rle (d_body h D r) (d_body h D' r).
  Proof.
    intros [a|p]; [apply rle_refl|]. unfold d_body. apply rle_bind; [apply rle_refl|]. intros o.
    destruct (o_kind o); try (apply rle_rmap, rle_mapM; first [exact DD | intros; unfold d_pair; repeat first [apply DD | apply rle_refl | apply rle_bind; [|intros]]]).
    - apply rle_refl.
    - apply mo_inst.
  Qed.
End Mono.

Lemma decode_S : forall h n r, rle (decode h n r) (decode h (S n) r).
Proof.
  intros h n. induction n as [|n IH]; intros r; [apply rle_bad|]. change (rle (d_body h (decode h n) r) (d_body h (decode h (S n)) r)).
  apply mo_body. exact IH.
Qed.
Lemma decode_mono : forall h n m r v, n <= m -> decode h n r = Ok v -> decode h m r = Ok v.
Proof. intros h n m r v L H. induction L as [|m L IH]; [exact H|]. apply decode_S. exact IH. Qed.

(** The depth of values is bounded by the number of objects. *)
Definition okb {A} (x : res A) : bool := match x with Ok _ => true | Err _ => false end.
Definition known (h : heap) (n : nat) : list addr := filter (fun p => okb (decode h n (RPtr p))) (seq 0 (List.length h)).
Lemma decode_valid : forall h n p v, decode h n (RPtr p) = Ok v -> p < List.length h.
Proof.
  intros h [|n] p v H; [discriminate|]. cbn [decode] in H. unfold d_body, obj_at in H.
  destruct (get h p) eqn:G; [|discriminate]. eapply get_lt; eauto.
Qed.
Lemma known_in : forall h n p, In p (known h n) <-> exists v, decode h n (RPtr p) = Ok v.
Proof.
  intros h n p. unfold known. rewrite filter_In, in_seq. split.
  - intros [_ H]. destruct (decode h n (RPtr p)) as [v|e]; [exists v; reflexivity|discriminate].
  - intros [v H]. split; [apply decode_valid in H; lia|]. rewrite H. reflexivity.
Qed.
Lemma known_nodup : forall h n, NoDup (known h n).
Proof. intros. apply NoDup_filter, seq_NoDup. Qed.
Lemma known_len : forall h n, List.length (known h n) <= List.length h.
Proof.
  intros. unfold known. rewrite <- (seq_length (List.length h) 0) at 2.
  generalize (seq 0 (List.length h)). intros l. induction l as [|p l IH]; [constructor|]. cbn [filter List.length].
  destruct (okb _); cbn [List.length]; lia.
Qed.
Lemma known_S : forall h n, incl (known h n) (known h (S n)).
Proof. intros h n p. rewrite !known_in. intros [v H]. exists v. apply decode_S. exact H. Qed.
Lemma atom_same : forall h n m a, decode h (S n) (RAtom a) = decode h (S m) (RAtom a).
Proof. reflexivity. Qed.
Lemma stable_next : forall h n, incl (known h (S (S n))) (known h (S n)) -> forall r, rle (decode h (S (S n)) r) (decode h (S n) r).
Proof.
  intros h n I [a|p] v H; [rewrite <- H; reflexivity|].
  destruct (proj1 (known_in h (S n) p)) as [w K]; [apply I, known_in; exists v; exact H|].
  rewrite K. apply decode_S in K. congruence.
Qed.
Lemma stable_on : forall h n, incl (known h (S (S n))) (known h (S n)) -> forall m r, rle (decode h (m + S n) r) (decode h (S n) r).
Proof.
  intros h n I m. induction m as [|m IH]; intros r v H; [exact H|].
  apply stable_next; [exact I|].
  change (d_body h (decode h (m + S n)) r = Ok v) in H. change (d_body h (decode h (S n)) r = Ok v).
  revert v H. apply mo_body. exact IH.
Qed.
Lemma grows : forall h n, (exists k, k < n /\ incl (known h (S (S k))) (known h (S k))) \/ n <= List.length (known h (S n)).
Proof.
  intros h n. induction n as [|n [(k & L & I)|IH]]; [right; lia|left; exists k; split; [lia|exact I]|].
  assert (LE : List.length (known h (S n)) <= List.length (known h (S (S n)))).
  { apply NoDup_incl_length; [apply known_nodup|apply known_S]. }
  destruct (Nat.eq_dec (List.length (known h (S n))) (List.length (known h (S (S n))))) as [E|E]; [|right; lia].
  left. exists n. split; [lia|]. apply NoDup_length_incl; [apply known_nodup|lia|apply known_S].
Qed.
Theorem view_enough : forall h n r v, decode h n r = Ok v -> view h r = Ok v.
Proof.
  intros h n r v H. unfold view.
  destruct (le_lt_dec n (S (List.length h))) as [L|L]; [eapply decode_mono; eauto|].
  assert (X : exists k, k <= List.length h /\ incl (known h (S (S k))) (known h (S k))).
  { destruct (grows h (S (List.length h))) as [(k & Lk & I)|G]; [exists k; split; [lia|exact I]|].
    pose proof (known_len h (S (S (List.length h)))). lia. }
  destruct X as (k & Lk & I). eapply decode_mono with (n := S k); [lia|].
  apply (stable_on h k I (n - S k)). replace (n - S k + S k) with n by lia. exact H.
Qed.
