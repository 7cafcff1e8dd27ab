(** Proofs about except clauses and __repr__ (C81, C82). *)
From Verif Require Import Base BaseFacts NumFmt Value Backend Eq Render ParseArgs Build Queries History Names SpecErrors SpecClient SpecHandlers SpecFails SpecSub
  PfHistories Prop_Client.
Open Scope N_scope.

Lemma hierarchy : forall c d, issubclass c d = true <-> documented c d.
Proof. intros c d. destruct c, d; vm_compute; intuition (try discriminate; try congruence). Qed.
Lemma handled : forall A (x : res A) c, (forall e, x = Err e -> issubclass (class_of e) c = true) -> always_handled x c.
Proof. intros A [a|e] c H h; [reflexivity|]. unfold try_except. now rewrite (H e eq_refl). Qed.
Section Script.
  Context {Q Op : Type} (E : env) (b : backend) (step : world -> Q -> Op -> Q * outcome) (q0 : Q).
  Let W := pure_world (with_be E b).
  Notation hist ops := (program E (map (pair b) ops)).
  Notation go := (run_calls W step).
  Lemma hist_calls : forall q ops, calls step q (hist ops) = fold_left (fun q op => fst (step W q op)) ops q.
  Proof. intros q ops. revert q. induction ops as [|op ops IH]; intros q; [reflexivity|]. unfold program. cbn [map fst snd]. exact (IH (fst (step W q op))). Qed.
  Lemma go_ok : forall ops q q', go q ops = Ok q' -> q' = calls step q (hist ops).
  Proof.
    induction ops as [|op ops IH]; intros q q' H; [injection H as <-; reflexivity|]. cbn [run_calls] in H. destruct (step W q op) as [q1 [[]|e]] eqn:S; [|discriminate].
    rewrite (IH _ _ H), !hist_calls. cbn [fold_left]. now rewrite S.
  Qed.
  Lemma go_err : forall ops q e, go q ops = Err e -> exists pre op post q', ops = pre ++ op :: post /\ step W (calls step q (hist pre)) op = (q', Err e).
  Proof.
    induction ops as [|op ops IH]; intros q e H; [discriminate|]. cbn [run_calls] in H. destruct (step W q op) as [q1 [[]|e']] eqn:S.
    - destruct (IH _ _ H) as [pre [op' [post [q' [-> R]]]]]. exists (op :: pre), op', post, q'. split; [reflexivity|]. rewrite hist_calls in *. cbn [fold_left]. rewrite S. exact R.
    - injection H as <-. exists [], op, ops, q1. split; [reflexivity|exact S].
  Qed.
  Lemma script_handled : forall (given regular : Op -> Prop) ops,
    (forall H op q' e, Forall given (map snd H) -> given op -> regular op -> step W (calls step q0 (program E H)) op = (q', Err e) -> invalid e) ->
    Forall given ops -> Forall regular ops -> always_handled (go q0 ops) XInvalidArgument.
  Proof.
    intros given regular ops H G R. apply handled. intros e X. destruct (go_err ops q0 e X) as [pre [op [post [q' [-> S]]]]].
    apply Forall_app in G. destruct G as [G1 G2]. apply Forall_app in R. destruct R as [_ R]. inversion G2; inversion R; subst.
    destruct (H (map (pair b) pre) op q' e) as [-> | ->]; auto. rewrite map_map. cbn [snd]. now rewrite map_id.
  Qed.
End Script.
Lemma snd_pairs : forall A (b : backend) (l : list A), map snd (map (pair b) l) = l.
Proof. intros. rewrite map_map. cbn [snd]. apply map_id. Qed.

(** ** repr *)
Lemma class_name_colon : forall v, ~ In 58 (class_name v).
Proof. intros v. destruct v; try destruct k; cbn; intuition discriminate. Qed.
Lemma split_at : forall (a b a' b' : str), ~ In 58 a -> ~ In 58 a' -> a ++ 58 :: b = a' ++ 58 :: b' -> a = a' /\ b = b'.
Proof.
  induction a as [|x a IH]; intros b [|y a'] b' N N' H.
  - injection H as ->. auto.
  - injection H as <- _. exfalso. apply N'. now left.
  - injection H as -> _. exfalso. apply N. now left.
  - injection H as -> H. destruct (IH b a' b') as [-> ->]; auto; intros I; [apply N|apply N']; now right.
Qed.
Lemma repr_tells : forall E x y r, py_repr E x = Ok r -> py_repr E y = Ok r -> class_name x = class_name y /\ exists t, text E x = Ok t /\ text E y = Ok t.
Proof.
  intros E x y r X Y. unfold py_repr in *. destruct (text E x) as [t|]; [|discriminate]. destruct (text E y) as [u|]; [|discriminate]. cbn [bind] in *.
  injection X as <-. injection Y as H.
  change (class_name y ++ 58 :: 32 :: u ++ [62] = class_name x ++ 58 :: 32 :: t ++ [62]) in H.
  apply split_at in H; try apply class_name_colon. destruct H as [-> H]. split; [reflexivity|]. injection H as H. apply app_inv_tail in H. subst. eauto.
Qed.
Lemma class_told : forall x y, is_sql x = true -> is_sql y = true -> class_name x = class_name y -> one_class x y.
Proof.
  intros x y X Y H.
  destruct x; try discriminate X; destruct y; try discriminate Y;
    repeat match goal with k : relk |- _ => destruct k | k : aggk |- _ => destruct k | k : condk |- _ => destruct k end;
    try discriminate H; constructor.
Qed.
Lemma repr_told : forall E x y r, is_sql x = true -> is_sql y = true -> py_repr E x = Ok r -> py_repr E y = Ok r ->
  one_class x y /\ exists t, text E x = Ok t /\ text E y = Ok t.
Proof. intros E x y r S S' X Y. destruct (repr_tells E x y r X Y) as [C T]. split; [now apply class_told|exact T]. Qed.
Lemma repr_raises : forall E x e, py_repr E x = Err e <-> text E x = Err e.
Proof. intros E x e. unfold py_repr. destruct (text E x) as [t|e']; cbn [bind]; split; intros H; try discriminate H; injection H as ->; reflexivity. Qed.

Lemma in_args : forall (T : val -> Prop) a k y, args_given T a k -> In y (a ++ map snd k) -> T y.
Proof.
  intros T a k y [F G] I. rewrite Forall_forall in F, G. apply in_app_or in I. destruct I as [I|I]; [now apply F|]. apply in_map_iff in I. destruct I as [p [<- I]]. now apply G.
Qed.
Lemma select_handlers : forall E, (forall v, e_pystr E v <> None) -> forall b ops, Forall (sel_given (client E)) ops -> Forall (regular_sel (with_be E b)) ops ->
  let built := run_calls (pure_world (with_be E b)) sel_step empty_select ops in
  always_handled built XInvalidArgument /\ forall q, built = Ok q -> exists t, text (with_be E b) (VSelect q) = Ok t.
Proof.
  intros E P b ops G R built. split.
  { apply (script_handled E b sel_step empty_select (sel_given (client E)) (regular_sel (with_be E b)) ops); [|exact G|exact R]. exact (proj1 (C79_exceptions E P b)). }
  intros q H. rewrite (go_ok E b sel_step ops _ _ H). apply (C79_prints E P). apply cl_select. intros b' op I y J.
  rewrite Forall_forall in G. apply in_map_iff in I. destruct I as [op' [Q I]]. injection Q as <- <-. specialize (G op' I). clear -G J.
  destruct op'; cbn [sel_given sel_args] in G, J; try (eapply in_args; eassumption); cbn [In] in J; intuition (subst; auto).
Qed.
Lemma update_handlers : forall E, (forall v, e_pystr E v <> None) -> forall b ops, Forall (upd_given (client E)) ops -> Forall (regular_upd (with_be E b)) ops ->
  let built := run_calls (pure_world (with_be E b)) upd_step empty_update ops in
  always_handled built XInvalidArgument /\ forall q, built = Ok q -> always_handled (text (with_be E b) (VUpdate q)) XConfirm /\ always_handled (text (with_be E b) (VUpdate q)) XConfirmUpdate.
Proof.
  intros E P b ops G R built. split.
  { apply (script_handled E b upd_step empty_update (upd_given (client E)) (regular_upd (with_be E b)) ops); [|exact G|exact R]. exact (proj1 (proj2 (C79_exceptions E P b))). }
  intros q H. rewrite (go_ok E b upd_step ops _ _ H). split; apply handled; intros e X;
  (destruct (proj1 (C79_statements E P b) (map (pair b) ops)) as [[t T]|T]; [rewrite snd_pairs; exact G|congruence|rewrite T in X; injection X as <-; reflexivity]).
Qed.
Lemma delete_handlers : forall E, (forall v, e_pystr E v <> None) -> forall b ops, Forall (del_given (client E)) ops -> Forall (regular_del (with_be E b)) ops ->
  let built := run_calls (pure_world (with_be E b)) del_step empty_delete ops in
  always_handled built XInvalidArgument /\ forall q, built = Ok q -> always_handled (text (with_be E b) (VDelete q)) XConfirm /\ always_handled (text (with_be E b) (VDelete q)) XConfirmDelete.
Proof.
  intros E P b ops G R built. split.
  { apply (script_handled E b del_step empty_delete (del_given (client E)) (regular_del (with_be E b)) ops); [|exact G|exact R]. exact (proj1 (proj2 (proj2 (C79_exceptions E P b)))). }
  intros q H. rewrite (go_ok E b del_step ops _ _ H). split; apply handled; intros e X;
  (destruct (proj1 (proj2 (C79_statements E P b)) (map (pair b) ops)) as [[t T]|T]; [rewrite snd_pairs; exact G|congruence|rewrite T in X; injection X as <-; reflexivity]).
Qed.
Lemma insert_handlers : forall E, (forall v, e_pystr E v <> None) -> forall b ops, Forall (ins_given (client E)) ops -> Forall (regular_ins (with_be E b)) ops ->
  Forall named_columns ops ->
  let built := run_calls (pure_world (with_be E b)) ins_step empty_insert ops in
  always_handled built XInvalidArgument /\ forall q, built = Ok q -> exists t, text (with_be E b) (VInsert q) = Ok t.
Proof.
  intros E P b ops G R N built. split.
  { apply (script_handled E b ins_step empty_insert (ins_given (client E)) (regular_ins (with_be E b)) ops); [|exact G|exact R]. exact (proj2 (proj2 (proj2 (C79_exceptions E P b)))). }
  intros q H. rewrite (go_ok E b ins_step ops _ _ H). apply (proj2 (proj2 (C79_statements E P b)) (map (pair b) ops)); rewrite snd_pairs; assumption.
Qed.
