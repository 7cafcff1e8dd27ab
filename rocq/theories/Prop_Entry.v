(** C88: the functions a program starts with.  Specification: SpecEntry.v. *)
From Verif Require Import Base NumFmt Value Backend Eq Render ParseArgs Build Queries Demo SpecRead SpecRef SpecEntry PfEntry.
Open Scope N_scope.

(** select( *cs).from_( *ts). *)
Theorem C88_select : forall E cs ts, Forall (one_part (e_be E)) cs -> NoDup cs -> Forall (one_part (e_be E)) ts -> NoDup ts ->
  exists q q', mk_select (pure_world E) (map VStr cs) [] = Ok q /\ sel_step (pure_world E) q (SFrom (map VStr ts) []) = (q', Ok tt) /\
    text E (VSelect q') = Ok (lit "SELECT " ++ (match cs with [] => lit "*" | _ => names_text (e_be E) cs end) ++
                              (match ts with [] => [] | _ => lit " FROM " ++ names_text (e_be E) ts end)).
Proof. exact select_names. Qed.
Print Assumptions C88_select.
(** select_from( *ts): all columns. *)
Theorem C88_select_from : forall E ts, Forall (one_part (e_be E)) ts -> NoDup ts ->
  exists q, mk_select_from (pure_world E) (map VStr ts) [] = Ok q /\
    text E (VSelect q) = Ok (lit "SELECT *" ++ (match ts with [] => [] | _ => lit " FROM " ++ names_text (e_be E) ts end)).
Proof. exact select_from_names. Qed.
Print Assumptions C88_select_from.
(** delete( *ds).from_( *ts): refused by str() until confirmed; the rows of [ds] are deleted. *)
Theorem C88_delete : forall E ds ts, Forall (one_part (e_be E)) ds -> NoDup ds -> ts <> [] -> Forall (one_part (e_be E)) ts -> NoDup ts ->
  exists q q', mk_delete (pure_world E) (map VStr ds) = Ok q /\ del_step (pure_world E) q (DFrom (map VStr ts) []) = (q', Ok tt) /\
    text E (VDelete q') = Err EConfirmDelete /\
    text E (VDelete (fst (del_step (pure_world E) q' DAllow))) =
      Ok (lit "DELETE" ++ (match ds with [] => [] | _ => lit " " ++ names_text (e_be E) ds end) ++ lit " FROM " ++ names_text (e_be E) ts).
Proof. exact delete_names. Qed.
Print Assumptions C88_delete.
(** delete_from( *ts). *)
Theorem C88_delete_from : forall E ts, ts <> [] -> Forall (one_part (e_be E)) ts -> NoDup ts ->
  exists q, mk_delete_from (pure_world E) (map VStr ts) [] = Ok q /\ text E (VDelete q) = Err EConfirmDelete /\
    text E (VDelete (fst (del_step (pure_world E) q DAllow))) = Ok (lit "DELETE FROM " ++ names_text (e_be E) ts).
Proof. exact delete_from_names. Qed.
Print Assumptions C88_delete_from.
(** update(t).set(c=z): refused by str() until confirmed. *)
Theorem C88_update : forall E t c z x, one_part (e_be E) t -> one_part (e_be E) c -> text E (VSqlV (VInt z)) = Ok x ->
  exists q q', mk_update (pure_world E) (VStr t) = Ok q /\ upd_step (pure_world E) q (USet [] [(c, VInt z)]) = (q', Ok tt) /\
    text E (VUpdate q') = Err EConfirmUpdate /\
    text E (VUpdate (fst (upd_step (pure_world E) q' UAllow))) =
      Ok (lit "UPDATE " ++ in_quotes (e_be E) t ++ lit " SET " ++ in_quotes (e_be E) c ++ lit " = " ++ x).
Proof. exact update_names. Qed.
Print Assumptions C88_update.
(** insert_into(t).values(c=z). *)
Theorem C88_insert : forall E t c z x, one_part (e_be E) t -> one_part (e_be E) c -> text E (VSqlV (VInt z)) = Ok x ->
  exists q q', mk_insert_into (pure_world E) (VStr t) = Ok q /\ ins_step (pure_world E) q (IValues [] [(c, VInt z)]) = (q', Ok tt) /\
    text E (VInsert q') = Ok (lit "INSERT INTO " ++ in_quotes (e_be E) t ++ lit " (" ++ in_quotes (e_be E) c ++ lit ") VALUES (" ++ x ++ lit ")").
Proof. exact insert_names. Qed.
Print Assumptions C88_insert.

Example C88_ok : Forall (one_part BMySql) [lit "id"; lit "my name"] /\ NoDup [lit "id"; lit "my name"] /\ text (demo BMySql) (VSqlV (VInt (-3))) = Ok (lit "-3").
Proof.
  assert (O : forall n, n <> [] -> existsb (N.eqb 46) n = false -> existsb (N.eqb 96) n = false -> n <> [42] -> one_part BMySql n).
  { intros n A B C D. split; [exact A|]. split; [|split; [|exact D]]; intros I.
    - assert (X : existsb (N.eqb 46) n = true) by (apply existsb_exists; exists 46; auto using N.eqb_refl). congruence.
    - assert (X : existsb (N.eqb 96) n = true) by (apply existsb_exists; exists 96; auto using N.eqb_refl). congruence. }
  split; [repeat (apply Forall_cons; [apply O; (reflexivity || discriminate)|]); apply Forall_nil|]. split; [|vm_compute; reflexivity].
  constructor; [intros [D|[]]; discriminate|constructor; [intros []|constructor]].
Qed.
Example C88_example : names_text BMySql [lit "id"; lit "my name"] = lit "`id`, `my name`" /\
  (do q <- mk_delete (demoW BMySql) [vs "a"]; text (demo BMySql) (VDelete (fst (del_run (demoW BMySql) q [DFrom [vs "a"; vs "b"] []; DAllow])))) = Ok (lit "DELETE `a` FROM `a`, `b`").
Proof. split; vm_compute; reflexivity. Qed.
