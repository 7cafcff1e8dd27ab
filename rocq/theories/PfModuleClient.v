(** Lemmas: what the functions of the module make of objects of a program is an object of a program. *)
From Verif Require Import Base BaseFacts NumFmt Value Backend Eq Render ParseArgs Build Queries History Entries SpecClient SpecModule PfModule PfClient.
Open Scope N_scope.

Lemma bound_from : forall ps args kwds vs, bind_params ps args kwds = Ok vs -> List.length vs = List.length ps /\
  forall v, In v vs -> In v args \/ In v (map snd kwds) \/ exists n, In (n, Some v) ps.
Proof.
  induction ps as [|[n d] ps IH]; intros args kwds vs H; cbn [bind_params] in H.
  - destruct args; [destruct kwds|]; try discriminate H. injection H as <-. split; [reflexivity|intros v []].
  - destruct args as [|a args].
    + assert (R : forall w, (In w (map snd kwds) \/ d = Some w) -> bind (bind_params ps [] (other_keywords n kwds)) (fun vs => Ok (w :: vs)) = Ok vs ->
        List.length vs = List.length ((n, d) :: ps) /\ forall v, In v vs -> In v [] \/ In v (map snd kwds) \/ exists m, In (m, Some v) ((n, d) :: ps)).
      { intros w S Q. destruct (bind_params ps [] (other_keywords n kwds)) as [us|] eqn:B; cbn [bind] in Q; [|discriminate Q]. injection Q as <-.
        destruct (IH _ _ _ B) as [L F]. split; [cbn; now rewrite L|]. intros v [<-|I].
        - right. destruct S as [S|S]; [now left|right; exists n; left; now rewrite S].
        - destruct (F v I) as [[]|[X|[m X]]]; [|right; right; exists m; now right].
          right; left. apply in_map_iff in X. destruct X as [p [<- X]]. apply in_map. unfold other_keywords in X. apply filter_In in X. tauto. }
      destruct (keyword n kwds) as [v|] eqn:K.
      * apply (R v); [left; apply keyword_in in K; apply in_map_iff; exists (n, v); auto|exact H].
      * destruct d as [v|]; [|discriminate H]. apply (R v); [now right|exact H].
    + destruct (keyword n kwds); [discriminate H|]. destruct (bind_params ps args kwds) as [us|] eqn:B; cbn [bind] in H; [|discriminate H]. injection H as <-.
      destruct (IH _ _ _ B) as [L F]. split; [cbn; now rewrite L|]. intros v [<-|I]; [left; now left|].
      destruct (F v I) as [X|[X|[m X]]]; [left; now right|right; now left|right; right; exists m; now right].
Qed.
Section Client.
Variables (E : env) (b : backend) (args : list val) (kwds : kwargs).
Hypothesis (G : forall y, In y (args ++ map snd kwds) -> client E y).
Lemma bound_client : forall ps vs, (forall n v, In (n, Some v) ps -> client E v) -> bind_params ps args kwds = Ok vs -> List.length vs = List.length ps /\ forall v, In v vs -> client E v.
Proof.
  intros ps vs D H. destruct (bound_from _ _ _ _ H) as [L F]. split; [exact L|]. intros v I. destruct (F v I) as [X|[X|[n X]]].
  - apply G. apply in_or_app. now left.
  - apply G. apply in_or_app. now right.
  - eapply D; exact X.
Qed.
Lemma data_client : forall v, v = VNone \/ v = VStr [] -> client E v.
Proof. intros v [-> | ->]; apply cl_data; reflexivity || exact Logic.I. Qed.
Lemma one_client : forall n d (A : Type) (f : val -> res A) x, (forall v, d = Some v -> v = VNone \/ v = VStr []) ->
  bind (bind_params [(n, d)] args kwds) (fun vs => f (hd VNone vs)) = Ok x -> exists v, client E v /\ f v = Ok x.
Proof.
  intros n d A f x D H. destruct (bind_params [(n, d)] args kwds) as [vs|] eqn:B; cbn [bind] in H; [|discriminate H].
  assert (DC : forall m v, In (m, Some v) [(n, d)] -> client E v) by (intros m v [X|[]]; injection X as _ X; apply data_client; auto).
  destruct (bound_client _ _ DC B) as [L F].
  destruct vs as [|v [|? ?]]; try discriminate L. exists v. split; [apply F; now left|exact H].
Qed.
Lemma agg_client : forall n k d x, In (n, k, d) aggregates -> call_module (at_backend E b) n args kwds = Ok x -> client E x.
Proof.
  intros n k d x I H. rewrite (call_aggregate _ _ _ I) in H. unfold with_expr in H.
  apply (one_client _ _ _ (fun e => Ok (made_of k d e))) in H; [|destruct k; intros v X; try discriminate X; injection X as <-; now left].
  destruct H as [v [C X]]. injection X as <-. unfold made_of. destruct d; cbn [fold_left]; [|now apply cl_agg].
  unfold mk_agg. apply cl_distinct. exact (cl_agg E k v C).
Qed.
Lemma select_client : forall op q, (forall y, In y (sel_args op) -> client E y) -> made (sel_step (at_backend E b) empty_select op) = Ok q -> client E (VSelect q).
Proof.
  intros op q F H. unfold made in H. destruct (sel_step (at_backend E b) empty_select op) as [q' [[]|]] eqn:S; [|discriminate H]. injection H as <-.
  replace q' with (calls sel_step empty_select (program E [(b, op)])).
  - apply cl_select. intros b' op' [X|[]]. injection X as <- <-. exact F.
  - cbn. unfold at_backend in S. rewrite S. reflexivity.
Qed.
Lemma module_client : forall n x, call_module (at_backend E b) n args kwds = Ok x -> match x with VInsert _ | VUpdate _ | VDelete _ => False | _ => True end -> client E x.
Proof.
  intros n x H NS.
  assert (AG : forall m k d, In (m, k, d) aggregates -> seqb n m = true -> client E x).
  { intros m k d I Q. apply seqb_eq in Q. subst m. eapply agg_client; eassumption. }
  assert (ONE : forall m d (f : val -> res val), (forall v, d = Some v -> v = VNone \/ v = VStr []) -> (forall v, client E v -> f v = Ok x -> client E x) ->
    bind (bind_params [(m, d)] args kwds) (fun vs => f (hd VNone vs)) = Ok x -> client E x).
  { intros m d f D F Q. apply one_client in Q; [|exact D]. destruct Q as [v [C Q]]. now apply (F v). }
  assert (ND : forall v : val, @None val = Some v -> v = VNone \/ v = VStr []) by discriminate.
  unfold call_module in H.
  destruct (seqb n (lit "select")). { unfold map_ok, mk_select in H. destruct (made _) as [q|] eqn:M; cbn [bind] in H; [|discriminate H]. injection H as <-. eapply select_client; [|exact M]. exact G. }
  destruct (seqb n (lit "select_from")). { unfold map_ok, mk_select_from in H. destruct (made _) as [q|] eqn:M; cbn [bind] in H; [|discriminate H]. injection H as <-. eapply select_client; [|exact M]. exact G. }
  destruct (seqb n (lit "insert")). { destruct (bind_params _ _ _); cbn [bind] in H; [|discriminate H]. injection H as <-. destruct NS. }
  destruct (seqb n (lit "insert_into")). { destruct (bind_params _ _ _) as [vs|]; cbn [bind] in H; [|discriminate H]. unfold map_ok in H. destruct (mk_insert_into _ _); cbn [bind] in H; [|discriminate H]. injection H as <-. destruct NS. }
  destruct (seqb n (lit "update")). { destruct (bind_params _ _ _) as [vs|]; cbn [bind] in H; [|discriminate H]. unfold map_ok in H. destruct (mk_update _ _); cbn [bind] in H; [|discriminate H]. injection H as <-. destruct NS. }
  destruct (seqb n (lit "delete")). { unfold no_keywords in H. destruct kwds; [|discriminate H]. unfold map_ok in H. destruct (mk_delete _ _); cbn [bind] in H; [|discriminate H]. injection H as <-. destruct NS. }
  destruct (seqb n (lit "delete_from")). { unfold map_ok in H. destruct (mk_delete_from _ _ _); cbn [bind] in H; [|discriminate H]. injection H as <-. destruct NS. }
  destruct (seqb n (lit "Q")). { eapply cl_Q; [exact G|exact H]. }
  destruct (seqb n (lit "Not")). { eapply cl_Not; [exact G|exact H]. }
  destruct (seqb n (lit "exists")). { unfold with_expr in H. apply (ONE _ _ (fun v => Ok (VExists v))) in H; [exact H|exact ND|]. intros v C X. injection X as <-. now apply cl_exists. }
  repeat match type of H with
  | (if seqb n (lit ?s) then ?y else _) = _ =>
      let Q := fresh "Q" in destruct (seqb n (lit s)) eqn:Q; [first [apply (AG (lit s) FAvg false); [cbn; tauto|exact Q]|apply (AG (lit s) FAvg true); [cbn; tauto|exact Q]
        |apply (AG (lit s) FCount false); [cbn; tauto|exact Q]|apply (AG (lit s) FCount true); [cbn; tauto|exact Q]
        |apply (AG (lit s) FMax false); [cbn; tauto|exact Q]|apply (AG (lit s) FMax true); [cbn; tauto|exact Q]
        |apply (AG (lit s) FMin false); [cbn; tauto|exact Q]|apply (AG (lit s) FMin true); [cbn; tauto|exact Q]
        |apply (AG (lit s) FSum false); [cbn; tauto|exact Q]|apply (AG (lit s) FSum true); [cbn; tauto|exact Q]]|]
  end.
  destruct (seqb n (lit "concat")). { unfold no_keywords in H. destruct kwds; [|discriminate H]. eapply cl_concat; [|exact H]. intros y I. apply G. apply in_or_app. now left. }
  destruct (seqb n (lit "group_concat")). { unfold no_keywords in H. destruct kwds; [|discriminate H]. eapply cl_group_concat; [|exact H]. intros y I. apply G. apply in_or_app. now left. }
  destruct (seqb n (lit "convert")).
  { unfold m_convert in H. destruct (bind_params _ _ _) as [vs|] eqn:B; cbn [bind] in H; [|discriminate H].
    assert (DC : forall m v, In (m, Some v) [(lit "expr", None); (lit "type_", Some VNone)] -> client E v) by (intros m v [X|[X|[]]]; [discriminate X|injection X as _ <-; apply data_client; now left]).
    destruct (bound_client _ _ DC B) as [L F].
    destruct vs as [|v [|w [|? ?]]]; try discriminate L. eapply cl_convert; [|exact H]. apply F. now left. }
  destruct (seqb n (lit "customsql") || seqb n (lit "C")).
  { unfold m_customsql in H. apply (ONE _ _ (mk_custom (at_backend E b))) in H; [exact H|intros v X; injection X as <-; now right|]. intros v C X. eapply cl_C; eassumption. }
  destruct (seqb n (lit "sqlvalue") || seqb n (lit "V")).
  { unfold m_sqlvalue in H. apply (ONE _ _ (fun v => Ok (VSqlV v))) in H; [exact H|exact ND|]. intros v C X. injection X as <-. now apply cl_V. }
  destruct (seqb n (lit "sqlreference") || seqb n (lit "R")); [|discriminate H].
  unfold m_sqlreference in H. apply (ONE _ _ (fun v => Ok (VSqlR v))) in H; [exact H|exact ND|]. intros v C X. injection X as <-. now apply cl_R.
Qed.
End Client.
