(** Proofs for C55-C59: the theorems in their final form. *)
From Verif Require Import Base NumFmt Value Backend Render SpecLex SpecRef SpecLogic SpecWhole SpecSql SpecServer
  PfSqlTree PfSqlStmt PfSqlExec PfSqlTotal.
Open Scope N_scope.

Lemma condition_truth : forall E x, cond_ok (e_be E) x ->
  exists t e, text E x = Ok t /\ understood_condition (dialect_of (e_be E)) t = Some e /\
    forall compare value, truth compare value e = asked (e_be E) compare value x.
Proof. intros E x H. destruct (cond_fine E x H) as [t T]. destruct (condition_understood E x t H T) as [e Q]. eauto. Qed.
Lemma delete_statement : forall E q, delete_fine (e_be E) q -> d_where q <> [] \/ d_allow q = true ->
  exists t st, text E (VDelete q) = Ok t /\ understood (dialect_of (e_be E)) t = Some st /\ says_delete (e_be E) q st.
Proof. intros E q H A. destruct (delete_renders E q H A) as [t T]. destruct (delete_understood E q t H T) as [e Q]. eauto. Qed.
Lemma delete_rows : forall E sv db q n p,
  d_tabs q = [] -> d_refs q = [MkTable n VNone []] -> name_ok (e_be E) n -> path_of n = Some p ->
  Forall (cond_ok (e_be E)) (d_where q) -> d_where q <> [] \/ d_allow q = true ->
  exists t st db', text E (VDelete q) = Ok t /\ understood (dialect_of (e_be E)) t = Some st /\ execute sv st db = Some db' /\
    db' p = filter (fun r => negb (selected (e_be E) sv (d_where q) r)) (db p) /\
    (forall p', p' <> p -> db' p' = db p').
Proof.
  intros E sv db q n p H1 H2 H3 H4 H5 A.
  assert (F : delete_fine (e_be E) q).
  { split; [rewrite H1; constructor|]. rewrite H2. split; [discriminate|]. split; [|exact H5].
    constructor; [|constructor]. split; [exact H3|]. split; [exact Logic.I|]. split; [constructor|]. left. repeat constructor. }
  destruct (delete_renders E q F A) as [t T]. destruct (delete_effect E sv db q n p t H1 H2 H3 H4 H5 T) as [st [db' Q]]. eauto.
Qed.
Lemma update_statement : forall E q, update_fine (e_be E) q -> u_where q <> [] \/ u_allow q = true ->
  exists t st, text E (VUpdate q) = Ok t /\ understood (dialect_of (e_be E)) t = Some st /\ says_update (e_be E) q st.
Proof. intros E q H A. destruct (update_renders E q H A) as [t T]. destruct (update_understood E q t H T) as [e Q]. eauto. Qed.
Lemma update_rows : forall E sv db q n p,
  u_tabs q = [MkTable n VNone []] -> path_of n = Some p -> update_fine (e_be E) q -> u_where q <> [] \/ u_allow q = true ->
  exists t st db', text E (VUpdate q) = Ok t /\ understood (dialect_of (e_be E)) t = Some st /\ execute sv st db = Some db' /\
    Forall2 (fun old new => forall c, new c =
      if selected (e_be E) sv (u_where q) old
      then match last_for c (assigned (e_be E) (u_vals q)) with Some l => l | None => old c end
      else old c) (db p) (db' p) /\
    (forall p', p' <> p -> db' p' = db p').
Proof.
  intros E sv db q n p H1 H2 F A.
  destruct (update_renders E q F A) as [t T]. destruct (update_effect E sv db q n p t H1 H2 F T) as [st [db' Q]]. eauto.
Qed.
Lemma insert_statement : forall E q, insert_fine (e_be E) q ->
  exists t st, text E (VInsert q) = Ok t /\ understood (dialect_of (e_be E)) t = Some st /\ says_insert (e_be E) q st.
Proof. intros E q H. destruct (insert_renders E q H) as [t T]. destruct (insert_understood E q t H T) as [e Q]. eauto. Qed.
Lemma insert_rows : forall E sv db q n p,
  i_replace q = false -> i_tabs q = [MkTable n VNone []] -> path_of n = Some p -> insert_fine (e_be E) q ->
  exists t st db' new, text E (VInsert q) = Ok t /\ understood (dialect_of (e_be E)) t = Some st /\ execute sv st db = Some db' /\
    db' p = db p ++ new /\ Forall2 (fun given r => forall c, r c = row_asked (e_be E) given c) (i_rows q) new /\
    (forall p', p' <> p -> db' p' = db p').
Proof.
  intros E sv db q n p H1 H2 H3 F.
  destruct (insert_renders E q F) as [t T]. destruct (insert_effect E sv db q n p t H1 H2 H3 F T) as [st [db' [new Q]]]. exists t, st, db', new. auto.
Qed.
Lemma select_statement : forall E q, select_fine (e_be E) q ->
  exists t st, text E (VSelect q) = Ok t /\ understood (dialect_of (e_be E)) t = Some st /\ says_select (e_be E) q st.
Proof. intros E q H. destruct (select_renders E q H) as [t T]. destruct (select_understood E q t H T) as [e Q]. eauto. Qed.
