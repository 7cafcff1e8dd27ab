(** Proofs for C96: the literal of a float or Decimal. *)
From Coq Require Import QArith Qabs Lia.
From Verif Require Import Base BaseFacts NumFmt Value Backend Render RenderFacts SpecRead SpecLex SpecRef SpecSql SpecServer
  LiteralFacts PfLiterals Demo.
Open Scope N_scope.

Lemma written_number : forall dec x neg a f, five_decimals x = Some (LNumber neg a f) ->
  fmt5 dec x = (if neg then [45] else []) ++ a ++ [46] ++ f.
Proof. intros dec x neg a f H. destruct x as [s n d| |]; try discriminate H. unfold five_decimals in H. injection H as <- <- <-. reflexivity. Qed.
Lemma number_literal : forall b v x, (v = VFloat x \/ v = VDec x) -> forall q, num_value x = Some q ->
  exists neg a f w, literal_of b v = Some (LNumber neg a f) /\ read_decimal ((if neg then [45] else []) ++ a ++ [46] ++ f) = Some w /\
    List.length f = 5%nat /\ (Qabs (w - q) <= 5 # 1000000)%Q.
Proof.
  intros b v x V q Q. destruct (float_five (demo b) v x V q Q) as [t [w [T [R [D A]]]]].
  destruct x as [s n d| |]; try discriminate Q.
  assert (L : literal_of b v = five_decimals (NFin s n d)) by (destruct V as [-> | ->]; reflexivity).
  unfold five_decimals in L. cbv zeta in L. set (k := round_half_even (n * 100000) d) in *.
  exists s, (n_dec (k / 100000)), (fixed 5 (k mod 100000)), w. split; [exact L|]. rewrite text_V in T.
  assert (F : exists dec, fmt5 dec (NFin s n d) = t) by (destruct V as [-> | ->]; cbn [sqlvalue] in T; injection T as T; exists true; exact T).
  destruct F as [dec F]. rewrite (written_number dec (NFin s n d) s (n_dec (k / 100000)) (fixed 5 (k mod 100000)) eq_refl) in F. rewrite F.
  split; [exact R|]. split; [apply fixed_length|exact A].
Qed.
