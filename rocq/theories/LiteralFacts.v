(** Proofs about the rendering of literals. *)
From Coq Require Import Lia ZifyBool ZifyN ZifyNat QArith Qabs Decimal DecimalN DecimalFacts.
From Verif Require Import Base BaseFacts NumFmt Value Backend Eq Render RenderFacts SpecLex SpecRead SpecRef.
Open Scope N_scope.
Ltac Zify.zify_post_hook ::= Z.div_mod_to_equations.

(** ** Escaping *)
Definition esc (c : chr) : str :=
  if c =? 92 then [92; 92] else if c =? 39 then [39; 39] else if c =? 10 then [92; 110] else [c].
Lemma escape_flat : forall s, escape_value s = flat_map esc s.
Proof.
  unfold escape_value, replace1. induction s as [|c s IH]; [reflexivity|].
  cbn [flat_map]. rewrite !flat_map_app. f_equal; [|exact IH].
  unfold esc, c_bs, c_sq, c_nl, c_n.
  destruct (c =? 92) eqn:E1; [reflexivity|].
  destruct (c =? 39) eqn:E2.
  - apply N.eqb_eq in E2. subst. reflexivity.
  - cbn [flat_map app]. rewrite E2. cbn [flat_map app].
    destruct (c =? 10); reflexivity.
Qed.

Definition not_first (q : chr) (s : str) : Prop := forall r, s <> q :: r.
Lemma lex_close : forall d q bs acc rest, not_first q rest ->
  lex d (LStr q bs acc) (q :: rest) = TStr acc :: lex d LCode rest.
Proof.
  intros d q bs acc rest H. cbn [lex]. rewrite N.eqb_refl.
  destruct rest as [|c r]; [reflexivity|].
  destruct (c =? q) eqn:E; [|reflexivity]. apply N.eqb_eq in E. subst. now destruct (H r).
Qed.
Lemma lex_escaped_bs : forall d s acc rest, not_first 39 rest ->
  lex d (LStr 39 true acc) (flat_map esc s ++ 39 :: rest) = TStr (acc ++ s) :: lex d LCode rest.
Proof.
  intros d s; induction s as [|c s IH]; intros acc rest H.
  - rewrite app_nil_r. now apply lex_close.
  - cbn [flat_map]. rewrite <- app_assoc. replace (acc ++ c :: s) with ((acc ++ [c]) ++ s) by now rewrite <- app_assoc.
    rewrite <- (IH (acc ++ [c]) rest H). unfold esc.
    destruct (c =? 92) eqn:E1; [apply N.eqb_eq in E1; subst; reflexivity|].
    destruct (c =? 39) eqn:E2; [apply N.eqb_eq in E2; subst; reflexivity|].
    destruct (c =? 10) eqn:E3; [apply N.eqb_eq in E3; subst; reflexivity|].
    cbn [app lex]. rewrite E2, E1. reflexivity.
Qed.
(** What a server without backslash escapes reads. *)
Definition den (c : chr) : str :=
  if c =? 92 then [92; 92] else if c =? 10 then [92; 110] else [c].
Lemma lex_escaped_std : forall d s acc rest, not_first 39 rest ->
  lex d (LStr 39 false acc) (flat_map esc s ++ 39 :: rest) = TStr (acc ++ flat_map den s) :: lex d LCode rest.
Proof.
  intros d s; induction s as [|c s IH]; intros acc rest H.
  - rewrite app_nil_r. now apply lex_close.
  - cbn [flat_map]. rewrite <- app_assoc, (app_assoc acc). rewrite <- (IH (acc ++ den c) rest H).
    unfold esc, den.
    destruct (c =? 92) eqn:E1; [apply N.eqb_eq in E1; subst; cbn; now rewrite <- app_assoc|].
    destruct (c =? 39) eqn:E2; [apply N.eqb_eq in E2; subst; reflexivity|].
    destruct (c =? 10) eqn:E3; [apply N.eqb_eq in E3; subst; cbn; now rewrite <- app_assoc|].
    cbn [app lex]. rewrite E2. reflexivity.
Qed.
Lemma den_same : forall s, flat_map den s = s <-> ~ In 92 s /\ ~ In 10 s.
Proof.
  assert (L : forall s, (List.length s <= List.length (flat_map den s))%nat).
  { induction s as [|c s IH]; cbn [flat_map]; [lia|]. rewrite app_length. unfold den at 1.
    destruct (c =? 92); [simpl; lia|]. destruct (c =? 10); simpl; lia. }
  induction s as [|c s IH]; [simpl; tauto|].
  cbn [flat_map]. unfold den at 1.
  destruct (c =? 92) eqn:E1; [|destruct (c =? 10) eqn:E2].
  - split.
    + intros H. apply (f_equal (@List.length _)) in H. simpl in H. pose proof (L s). lia.
    + apply N.eqb_eq in E1. subst. intros [H _]. destruct H. now left.
  - split.
    + intros H. apply (f_equal (@List.length _)) in H. simpl in H. pose proof (L s). lia.
    + apply N.eqb_eq in E2. subst. intros [_ H]. destruct H. now left.
  - apply N.eqb_neq in E1, E2. cbn [app]. split.
    + intros H. injection H as H. apply IH in H. simpl. intuition congruence.
    + intros [H1 H2]. f_equal. apply IH. split; intros X; [apply H1|apply H2]; now right.
Qed.

(** ** Numerals *)
Lemma digit_ok : forall d, d <= 9 -> digit (48 + d) = Some d.
Proof. intros d H. unfold digit. destruct ((48 <=? 48 + d) && (48 + d <=? 57)) eqn:E; [f_equal; lia|lia]. Qed.
Lemma read_uint_pos : forall u p, read_digits (Npos p) (uint_str u) = Some (Npos (Pos.of_uint_acc u p)).
Proof.
  induction u; intros p; cbn [uint_str read_digits Pos.of_uint_acc]; [reflexivity|..];
    match goal with |- context [digit ?c] => change (digit c) with (Some (c - 48)) end;
    cbv beta iota; rewrite <- IHu; f_equal; lia.
Qed.
Lemma read_uint : forall u, read_digits 0 (uint_str u) = Some (Pos.of_uint u).
Proof.
  induction u; cbn [uint_str read_digits Pos.of_uint]; [reflexivity| |..];
    match goal with |- context [digit ?c] => change (digit c) with (Some (c - 48)) end;
    [exact IHu|..]; cbn -[Pos.of_uint_acc]; apply read_uint_pos.
Qed.
Lemma n_dec_read : forall n, read_digits 0 (n_dec n) = Some n.
Proof. intros n. unfold n_dec. rewrite read_uint. f_equal. apply (DecimalN.Unsigned.of_to n). Qed.
Lemma n_dec_nonnil : forall n, n_dec n <> [].
Proof.
  intros n H. unfold n_dec in H. destruct (N.to_uint n) eqn:E; try discriminate.
  pose proof (DecimalN.Unsigned.of_to n) as O. rewrite E in O. simpl in O. subst. discriminate.
Qed.
Lemma n_dec_first : forall n c r, n_dec n = c :: r -> 48 <= c <= 57.
Proof. intros n c r. unfold n_dec. destruct (N.to_uint n); simpl; intros H; inversion H; lia. Qed.
Lemma n_dec_digits : forall n c, In c (n_dec n) -> 48 <= c <= 57.
Proof.
  intros n. unfold n_dec. induction (N.to_uint n); simpl; intros c H; [contradiction|..];
    destruct H as [<-|H]; auto; lia.
Qed.
Lemma n_dec_canonical : forall n, n <> 0 -> exists c r, n_dec n = c :: r /\ 49 <= c <= 57.
Proof.
  intros n Hn. unfold n_dec.
  pose proof (DecimalN.Unsigned.to_of (N.to_uint n)) as H. rewrite DecimalN.Unsigned.of_to in H.
  destruct (N.to_uint n) as [|u|u|u|u|u|u|u|u|u|u] eqn:E; simpl;
    try (eexists _, _; split; [reflexivity|lia]).
  - exfalso. pose proof (DecimalN.Unsigned.of_to n) as O. rewrite E in O. simpl in O. congruence.
  - exfalso. unfold unorm in H. destruct (nzhead (D0 u)) eqn:Z; try discriminate.
    + injection H as H. subst u. pose proof (DecimalN.Unsigned.of_to n) as O. rewrite E in O. simpl in O. congruence.
    + exact (nzhead_nonzero _ _ Z).
Qed.
Lemma read_nat_dec : forall n, read_nat (n_dec n) = Some n.
Proof.
  intros n. unfold read_nat. pose proof (n_dec_nonnil n). destruct (n_dec n) eqn:E; [congruence|].
  rewrite <- E. apply n_dec_read.
Qed.
Lemma z_dec_read : forall z, read_int (z_dec z) = Some z.
Proof.
  intros [|p|p]; [reflexivity| |].
  - unfold z_dec, read_int. replace (Z.to_N (Z.pos p)) with (Npos p) by reflexivity.
    rewrite read_nat_dec. destruct (n_dec (Npos p)) as [|c r] eqn:E; [now destruct (n_dec_nonnil (Npos p))|].
    pose proof (n_dec_first _ _ _ E) as F.
    destruct c as [|p0]; [reflexivity|].
    do 6 (destruct p0 as [p0|p0|]; try reflexivity; try lia).
  - unfold z_dec, read_int. rewrite read_nat_dec. reflexivity.
Qed.
Lemma z_dec_canonical : forall z, canonical_int (z_dec z).
Proof.
  intros [|p|p]; unfold canonical_int.
  - left. reflexivity.
  - right; left. unfold z_dec. destruct (n_dec_canonical (Z.to_N (Z.pos p))) as [c [r [E H]]]; [easy|].
    exists c, r. auto.
  - right; right. unfold z_dec. destruct (n_dec_canonical (Npos p)) as [c [r [E H]]]; [easy|].
    exists c, r. rewrite E. auto.
Qed.

(** Fixed-width fields. *)
Lemma fixed_length : forall w n, List.length (fixed w n) = w.
Proof. induction w; intros n; simpl; [reflexivity|]. rewrite app_length, IHw. simpl. lia. Qed.
Fixpoint N10 (w : nat) : N := match w with O => 1 | S k => 10 * N10 k end.
Lemma read_digits_app : forall a b acc x, read_digits acc a = Some x -> read_digits acc (a ++ b) = read_digits x b.
Proof.
  induction a as [|c a IH]; simpl; intros b acc x H; [congruence|].
  destruct (digit c); [|discriminate]. now apply IH.
Qed.
Lemma N10_pos : forall w, 0 < N10 w.
Proof. induction w; cbn [N10]; lia. Qed.
Lemma fixed_read : forall w n acc, n < N10 w -> read_digits acc (fixed w n) = Some (acc * N10 w + n).
Proof.
  induction w as [|w IH]; intros n acc H; cbn [fixed N10] in *.
  - cbn [read_digits]. f_equal. lia.
  - pose proof (N10_pos w) as P.
    rewrite (read_digits_app _ _ acc (acc * N10 w + n / 10)); [|apply IH; apply N.div_lt_upper_bound; lia].
    cbn [read_digits]. rewrite digit_ok by (pose proof (N.mod_upper_bound n 10); lia).
    f_equal. pose proof (N.div_mod n 10). nia.
Qed.
Lemma fixed_nonnil : forall w n, w <> O -> fixed w n <> [].
Proof. intros w n H E. apply H. rewrite <- (fixed_length w n), E. reflexivity. Qed.
Lemma read_nat_fixed : forall w n, w <> O -> n < N10 w -> read_nat (fixed w n) = Some n.
Proof.
  intros w n Hw H. unfold read_nat. destruct (fixed w n) eqn:E; [now apply fixed_nonnil in E|].
  rewrite <- E. rewrite fixed_read by assumption. reflexivity.
Qed.
Lemma fixed_digits : forall w n c, In c (fixed w n) -> 48 <= c <= 57.
Proof.
  induction w; cbn [fixed]; intros n c H; [destruct H|]. apply in_app_iff in H. destruct H as [H|[<-|[]]]; eauto.
  pose proof (N.mod_upper_bound n 10). lia.
Qed.
Lemma take_app : forall n a b, List.length a = n -> take n (a ++ b) = Some (a, b).
Proof. intros n a; revert n; induction a; intros n b <-; simpl; [reflexivity|]. now rewrite IHa. Qed.
Lemma field_fixed : forall w n r, w <> O -> n < N10 w -> field w (fixed w n ++ r) = Some (n, r).
Proof.
  intros w n r Hw H. unfold field. rewrite take_app by apply fixed_length. now rewrite read_nat_fixed.
Qed.

(** ** Dates *)
Lemma date_read : forall d r, valid_date d -> read_date (date_iso d ++ r) = Some (d, r).
Proof.
  intros [y m dd] r [H1 [H2 H3]]; cbn [d_year d_month d_day] in *. unfold read_date, date_iso; cbn [d_year d_month d_day].
  rewrite <- !app_assoc, field_fixed by (easy || (simpl; lia)). cbn [app sep]. rewrite N.eqb_refl.
  rewrite field_fixed by (easy || (simpl; lia)). cbn [sep]. rewrite N.eqb_refl.
  rewrite field_fixed by (easy || (simpl; lia)). reflexivity.
Qed.
Lemma time_read : forall t, valid_time t -> read_time (time_iso t) = Some (t, []).
Proof.
  intros [h m s u] [H1 [H2 [H3 H4]]]; cbn [t_hour t_min t_sec t_us] in *. unfold read_time, time_iso; cbn [t_hour t_min t_sec t_us].
  rewrite <- ?app_assoc, field_fixed by (easy || (simpl; lia)). cbn [app sep]. rewrite N.eqb_refl.
  rewrite field_fixed by (easy || (simpl; lia)). cbn [sep]. rewrite N.eqb_refl.
  rewrite field_fixed by (easy || (simpl; lia)).
  destruct (u =? 0) eqn:E; [apply N.eqb_eq in E; now subst|].
  cbn [app sep]. change (c_dot =? 46) with true. cbv iota.
  rewrite <- (app_nil_r (fixed 6 u)), field_fixed by (easy || (simpl; lia)). reflexivity.
Qed.
Lemma date_iso_read : forall d, valid_date d -> read_iso_date (date_iso d) = Some d.
Proof.
  intros d H. unfold read_iso_date. rewrite <- (app_nil_r (date_iso d)), date_read by exact H. reflexivity.
Qed.
Lemma datetime_iso_read : forall d t, valid_date d -> valid_time t -> read_iso_datetime (datetime_iso d t) = Some (d, t).
Proof.
  intros d t Hd Ht. unfold read_iso_datetime, datetime_iso. rewrite date_read by exact Hd.
  cbn [app sep]. rewrite N.eqb_refl. now rewrite time_read.
Qed.

(** ** Text without quotes or backslashes is read as it is. *)
Lemma lex_plain : forall d bs s acc rest, (forall c, In c s -> c <> 39 /\ c <> 92) -> not_first 39 rest ->
  lex d (LStr 39 bs acc) (s ++ 39 :: rest) = TStr (acc ++ s) :: lex d LCode rest.
Proof.
  intros d bs s; induction s as [|c s IH]; intros acc rest H Hr.
  - rewrite app_nil_r. now apply lex_close.
  - cbn [app lex]. destruct (H c (or_introl eq_refl)) as [H1 H2]. apply N.eqb_neq in H1, H2.
    rewrite H1, H2, andb_false_r. cbn iota.
    rewrite IH; [|intros; apply H; now right|exact Hr]. now rewrite <- app_assoc.
Qed.
Lemma date_chars : forall d c, In c (date_iso d) -> c <> 39 /\ c <> 92.
Proof.
  intros d c H. unfold date_iso in H. rewrite !in_app_iff in H.
  destruct H as [H|[[<-|[]]|[H|[[<-|[]]|H]]]]; try (apply fixed_digits in H); lia.
Qed.
Lemma time_chars : forall t c, In c (time_iso t) -> c <> 39 /\ c <> 92.
Proof.
  intros t c H. unfold time_iso in H. rewrite !in_app_iff in H.
  destruct H as [H|[[<-|[]]|[H|[[<-|[]]|[H|H]]]]]; try (apply fixed_digits in H; lia); try lia.
  destruct (t_us t =? 0); [destruct H|]. destruct H as [<-|H]; [unfold c_dot; lia|]. apply fixed_digits in H; lia.
Qed.
Lemma datetime_chars : forall d t c, In c (datetime_iso d t) -> c <> 39 /\ c <> 92.
Proof.
  intros d t c H. unfold datetime_iso in H. rewrite !in_app_iff in H. destruct H as [H|[[<-|[]]|H]].
  - eapply date_chars; eauto. - lia. - eapply time_chars; eauto.
Qed.

(** ** Bytes *)
Lemma hexdigit_hex : forall n, n < 16 -> hex (hexdigit n) = Some n.
Proof.
  intros n H. unfold hexdigit, hex. destruct (n <? 10) eqn:E.
  - destruct ((48 <=? 48 + n) && (48 + n <=? 57)) eqn:F; [f_equal; lia|lia].
  - destruct ((48 <=? 87 + n) && (87 + n <=? 57)) eqn:F; [lia|].
    destruct ((97 <=? 87 + n) && (87 + n <=? 102)) eqn:G; [f_equal; lia|lia].
Qed.
Lemma hexlify_unhex : forall b, Forall (fun x => x < 256) b -> unhex (hexlify b) = Some b.
Proof.
  induction b as [|x b IH]; intros H; [reflexivity|]. inversion H as [|? ? Hx Hb]; subst.
  cbn [hexlify flat_map app unhex]. fold (hexlify b). rewrite !hexdigit_hex, IH by (assumption || lia).
  do 2 f_equal. lia.
Qed.
Lemma hexlify_chars : forall b, Forall (fun x => x < 256) b -> forall c, In c (hexlify b) -> c <> 39 /\ c <> 92.
Proof.
  induction b as [|x b IH]; intros H c Hc; [contradiction|]. inversion H as [|? ? Hx Hb]; subst.
  cbn [hexlify flat_map] in Hc. apply in_app_iff in Hc. destruct Hc as [Hc|Hc]; [|now apply IH].
  assert (P : forall n, n < 16 -> hexdigit n <> 39 /\ hexdigit n <> 92)
    by (intros n Hn; unfold hexdigit; destruct (n <? 10) eqn:E; lia).
  destruct Hc as [<-|[<-|[]]]; apply P; lia.
Qed.

(** ** Five decimals *)
Lemma split_dot_app : forall a b, ~ In 46 a -> split_dot (a ++ 46 :: b) = Some (a, b).
Proof.
  induction a as [|c a IH]; intros b H; [reflexivity|].
  cbn [app split_dot]. destruct (c =? 46) eqn:E; [apply N.eqb_eq in E; subst; now destruct H; left|].
  rewrite IH; [reflexivity|]. intros X; apply H; now right.
Qed.
Lemma round_bound : forall n d, 2 * (round_half_even n d * Npos d) <= 2 * n + Npos d
  /\ 2 * n <= 2 * (round_half_even n d * Npos d) + Npos d.
Proof.
  intros n d. unfold round_half_even.
  pose proof (N.div_mod n (Npos d)) as D. pose proof (N.mod_upper_bound n (Npos d)) as M.
  set (q := n / N.pos d) in *. set (r := n mod N.pos d) in *. specialize (D ltac:(lia)). specialize (M ltac:(lia)).
  destruct (N.compare_spec (2 * r) (Npos d)) as [C|C|C]; [destruct (N.even q)| |]; nia.
Qed.
Lemma fmt5_unsigned : forall k, exists x, read_unsigned_decimal (n_dec (k / 100000) ++ [c_dot] ++ fixed 5 (k mod 100000)) = Some x
  /\ (x == (Z.of_N k # 100000))%Q
  /\ decimals (n_dec (k / 100000) ++ [c_dot] ++ fixed 5 (k mod 100000)) = Some 5%nat.
Proof.
  intros k. unfold read_unsigned_decimal, decimals. cbn [app].
  assert (S : ~ In 46 (n_dec (k / 100000))) by (intros H; apply n_dec_digits in H; lia).
  rewrite (split_dot_app _ _ S). rewrite read_nat_dec, read_nat_fixed, fixed_length by (easy || (simpl; lia)).
  eexists; split; [reflexivity|]. split; [|reflexivity].
  change (pow10 5) with 100000%positive.
  replace (k / 100000 * N.pos 100000 + k mod 100000) with k by lia. reflexivity.
Qed.
Lemma fmt5_first : forall n r, match n_dec n ++ r with 45 :: _ => False | _ => True end.
Proof.
  intros n r. destruct (n_dec n) as [|c l] eqn:E; [now destruct (n_dec_nonnil n)|].
  apply n_dec_first in E. simpl. destruct c as [|p]; [exact I|].
  do 6 (destruct p as [p|p|]; try exact I; try lia).
Qed.
Lemma fmt5_read : forall dec x v, num_value x = Some v ->
  exists w, read_decimal (fmt5 dec x) = Some w /\ (Qabs (w - v) <= 5 # 1000000)%Q.
Proof.
  intros dec [neg n d|neg|] v H; try discriminate. simpl in H. injection H as <-.
  unfold fmt5. set (k := round_half_even (n * 100000) d).
  destruct (fmt5_unsigned k) as [x [Hx [Ex _]]].
  assert (B : (Qabs (x - (Z.of_N n # d)) <= 5 # 1000000)%Q).
  { rewrite Ex. apply Qabs_Qle_condition.
    pose proof (round_bound (n * 100000) d) as [R1 R2]. fold k in R1, R2.
    unfold Qle, Qminus, Qplus, Qopp; simpl. split; nia. }
  destruct neg.
  - match goal with |- context [[45] ++ ?y] => change ([45] ++ y) with (45 :: y) end.
    exists (- x)%Q. unfold read_decimal. rewrite Hx. split; [reflexivity|].
    setoid_replace (- x - - (Z.of_N n # d))%Q with (- (x - (Z.of_N n # d)))%Q by ring.
    now rewrite Qabs_opp.
  - exists x. split; [|exact B]. rewrite app_nil_l.
    pose proof (fmt5_first (k / 100000) ([c_dot] ++ fixed 5 (k mod 100000))) as F.
    unfold read_decimal. rewrite <- Hx.
    destruct (n_dec (k / 100000) ++ [c_dot] ++ fixed 5 (k mod 100000)) as [|c l]; [reflexivity|].
    destruct c as [|p]; [reflexivity|]. do 6 (destruct p as [p|p|]; try reflexivity). contradiction.
Qed.
Lemma split_dot_cons : forall c s, c <> 46 -> split_dot (c :: s) =
  match split_dot s with Some (a, b) => Some (c :: a, b) | None => None end.
Proof. intros c s H. cbn [split_dot]. apply N.eqb_neq in H. now rewrite H. Qed.
Lemma fmt5_decimals : forall dec x v, num_value x = Some v -> decimals (fmt5 dec x) = Some 5%nat.
Proof.
  intros dec [neg n d|neg|] v H; try discriminate.
  unfold fmt5. set (k := round_half_even (n * 100000) d).
  destruct (fmt5_unsigned k) as [x [_ [_ D]]]. destruct neg; [|exact D].
  unfold decimals in *. cbn [app] in *. rewrite split_dot_cons by easy.
  destruct (split_dot _) as [[a b]|]; [exact D|discriminate].
Qed.
