(** Programs whose conditions contain queries: C80.
    Specification: SpecSub.v (programs and the rows they ask for), SpecNestRows.v (rows on the
    server), SpecNested.v (reading of the text), SpecProgram.v, SpecArgs.v. *)
From Coq Require Import Lia Permutation Sorted.
From Verif Require Import Base NumFmt Value Backend Eq Render ParseArgs Build Queries History Demo
  SpecLex SpecRef SpecLogic SpecHistory SpecArgs SpecErrors SpecWhole SpecSql SpecServer SpecProgram SpecNested SpecNestRows SpecSub PfSubRun Prop_Server Prop_Program.
Open Scope N_scope.

(** C80.  Building a query whose conditions contain queries, nested to any depth, does not
    raise.  The text is a SELECT for which the server returns exactly the rows asked for; it
    refuses it exactly if the rows asked for make no sense. *)
Theorem C80_select : forall E b q, sel_sensible b q ->
  exists x s nq, sel_run (pure_world (with_be E b)) q = Ok x /\ text (with_be E b) x = Ok s /\ read_statement (dialect_of b) s = Some (NSelect nq) /\
    forall sv has total db, returned sv has total db (NSelect nq) = chosen b sv has total db [] q.
Proof. exact (fun E b q => select_sub b E q). Qed.
Print Assumptions C80_select.

(** C80.  delete_from(t) with such conditions deletes the rows that satisfy them, and no others. *)
Theorem C80_delete : forall E b t wh, good_name (quote_of b) t -> Forall (where_sensible b) wh -> (exists w, In w wh /\ gives_condition w) ->
  exists x s st, delete_run (pure_world (with_be E b)) t wh = Ok x /\ text (with_be E b) x = Ok s /\ read_statement (dialect_of b) s = Some st /\
    forall sv has total db, match changed sv has total db st, rows_left b sv has total db t wh with
      | Some db', Some rows => db' (name_segments t) = rows /\ forall p, p <> name_segments t -> db' p = db p
      | None, None => True
      | _, _ => False
      end.
Proof. exact (fun E b => delete_sub b E). Qed.
Print Assumptions C80_delete.

(** C80.  update(t).set(...) with such conditions changes the rows that satisfy them, and no others. *)
Theorem C80_update : forall E b t a k ps wh, good_name (quote_of b) t -> set_call b a k ps -> ps <> [] -> none_returns (stores b ps) ->
  Forall (where_sensible b) wh -> (exists w, In w wh /\ gives_condition w) ->
  exists x s st, update_run (pure_world (with_be E b)) t a k wh = Ok x /\ text (with_be E b) x = Ok s /\ read_statement (dialect_of b) s = Some st /\
    forall sv has total db, match changed sv has total db st, mapO (row_matches b sv has total db t wh) (db (name_segments t)) with
      | Some db', Some hits =>
          Forall2 (fun old new => new_row b ps (snd old) (fst old) new) (List.combine (db (name_segments t)) hits) (db' (name_segments t)) /\
          forall p, p <> name_segments t -> db' p = db p
      | None, None => True
      | _, _ => False
      end.
Proof. exact (fun E b => update_sub b E). Qed.
Print Assumptions C80_update.

(** ** Examples *)
(** where('a', x), where(a=x), where([('a', x), ('b', y)]) *)
Definition two : arguments := fun ps => match ps with [(c, v)] => ([c; v], []) | _ => ([], []) end.
Definition keywords : arguments := fun ps => ([], map (fun p => (match fst p with VStr s => s | _ => [] end, snd p)) ps).
Definition listed : arguments := fun ps => ([VSeq KList (map (fun p => VSeq KTuple [fst p; snd p]) ps)], []).
Lemma two_faithful : forall c, faithful two [c].
Proof.
  intros c [|[x v] [|p ps]] H; try discriminate H. injection H as ->. cbn [two]. split; [no_dict|]. split; [right; exists (VStr c); split; [now left|reflexivity]|].
  apply pa_two; [data|]. split; constructor.
Qed.
Lemma keyword_faithful : forall c, faithful keywords [c].
Proof. intros c [|[x v] [|p ps]] H; try discriminate H. injection H as ->. cbn. split; [no_dict|]. split; [now left|apply one_keyword]. Qed.
Lemma listed_faithful : forall names, faithful listed names.
Proof.
  intros names ps _. cbn [listed]. split; [no_dict|]. split; [right; eexists; split; [now left|reflexivity]|]. rewrite <- (app_nil_r ps) at 2.
  eapply pa_list; [left; reflexivity| |split; constructor].
  induction ps as [|[c v] ps IH]; cbn [map fst snd]; constructor; [|exact IH]. exists [c; v]. split; [now right|constructor].
Qed.
Ltac is_name := split; [cbn; intuition discriminate|vm_compute; discriminate].

(** select('name').from_('t').where('id', IN(select('owner').from_(('o', 'x')).where([('x.owner', R('t.id')), ('total', GT(10))]))) *)
Definition orders : nsel := NSel (CNames [lit "owner"]) (lit "o") (Some (lit "x"))
  [WPairs listed [(lit "x.owner", SRef None (lit "t.id")); (lit "total", SData (VRel RGt (VInt 10)))]].
Definition buyers : nsel := NSel (CNames [lit "name"]) (lit "t") None [WPairs two [(lit "id", SSub (Some RIn) orders)]].
(** Not(exists(select().from_('o').where(owner=R('t.id')))) *)
Definition without_orders : nexp := EAll true [EExists (NSel (CNames []) (lit "o") None [WPairs keywords [(lit "owner", SRef None (lit "t.id"))]])].
(** Q(id=select(Max('owner')).from_('o')) *)
Definition latest : nexp := EPairs false keywords [(lit "id", SSub None (NSel (CTotal FMax false (lit "owner")) (lit "o") None []))].

Example C80_ok : sel_sensible BMySql buyers /\ exp_sensible BMySql without_orders /\ exp_sensible BMySql latest /\
  Forall (where_sensible BMySql) [WObjects [without_orders]] /\ (exists w, In w [WObjects [without_orders]] /\ gives_condition w) /\
  Forall (where_sensible BMySql) [WObjects [latest]] /\ (exists w, In w [WObjects [latest]] /\ gives_condition w) /\
  good_name (quote_of BMySql) (lit "t") /\ set_call BMySql [] [(lit "name", vs "z")] [(vs "name", vs "z")] /\ none_returns (stores BMySql [(vs "name", vs "z")]).
Proof.
  assert (CN : forall s, good_name (quote_of BMySql) (lit s) -> (Datatypes.length (name_segments (lit s)) <=? 3)%nat = true -> forallb (fun x => negb (seqb x (lit "*"))) (name_segments (lit s)) = true ->
    column_name BMySql (lit s)).
  { intros s G L F. split; [exact G|]. split; [now apply PeanoNat.Nat.leb_le|]. intros I. rewrite forallb_forall in F. specialize (F _ I). vm_compute in F. discriminate F. }
  assert (B : sel_sensible BMySql buyers).
  { split; [split; [constructor; [intros []|constructor]|constructor; [split; [is_name|cbn; intuition discriminate]|constructor]]|]. split; [is_name|]. split; [exact Logic.I|].
    split; [|exact Logic.I]. split; [apply two_faithful|]. split; [|exact Logic.I]. split; [is_name|].
    split; [split; [constructor; [intros []|constructor]|constructor; [split; [is_name|cbn; intuition discriminate]|constructor]]|]. split; [is_name|]. split; [is_name|].
    split; [|exact Logic.I]. split; [apply listed_faithful|]. split; [split; [is_name|split; [apply CN; [is_name|reflexivity|reflexivity]|exact Logic.I]]|].
    split; [|exact Logic.I]. split; [is_name|]. exact Logic.I. }
  assert (X : exp_sensible BMySql without_orders).
  { split; [split; [discriminate|now left]|]. split; [|exact Logic.I]. split; [split; constructor|]. split; [is_name|]. split; [exact Logic.I|]. split; [|exact Logic.I].
    split; [apply keyword_faithful|]. split; [|exact Logic.I]. split; [is_name|]. split; [apply CN; [is_name|reflexivity|reflexivity]|exact Logic.I]. }
  assert (L : exp_sensible BMySql latest).
  { split; [apply keyword_faithful|]. split; [discriminate|]. split; [|exact Logic.I]. split; [is_name|]. split; [is_name|]. split; [is_name|]. split; exact Logic.I. }
  split; [exact B|]. split; [exact X|]. split; [exact L|].
  split; [constructor; [|constructor]; split; [split; [discriminate|now left]|split; [exact X|exact Logic.I]]|]. split; [eexists; split; [now left|exact Logic.I]|].
  split; [constructor; [|constructor]; split; [split; [discriminate|now left]|split; [exact L|exact Logic.I]]|]. split; [eexists; split; [now left|exact Logic.I]|].
  split; [is_name|]. split.
  - split; [no_dict|]. split; [now left|]. split; [apply one_keyword|]. constructor; [|constructor]. split; [exists (lit "name"); split; [reflexivity|]; split; [is_name|vm_compute; reflexivity]|left; cbn [snd datum vs]; fits].
  - intros c v pre mid post H w I. exfalso. destruct pre as [|p [|p' pre]]; try discriminate H. injection H as _ _ H. destruct mid; discriminate H.
Qed.

(** Orders 100 and 101 of user 3, order 102 of user 1. *)
Definition order (id owner total : Z) : row :=
  fun c => if seqb c (lit "id") then LInt id else if seqb c (lit "owner") then LInt owner else if seqb c (lit "total") then LInt total else LNull.
Definition shop : database := fun p => if path_eqb p [lit "o"] then [order 100 3 50; order 101 3 5; order 102 1 7] else demo_db p.
Definition has_column (t : path) (c : str) : bool :=
  existsb (seqb c) (if path_eqb t [lit "t"] then [lit "id"; lit "name"] else if path_eqb t [lit "o"] then [lit "id"; lit "owner"; lit "total"] else []).
Definition greatest (f : str) (d : bool) (l : list SpecProgram.shown) : literal :=
  fold_left (fun m x => match x with Cell (LInt n) => match m with LInt k => LInt (Z.max k n) | _ => LInt n end | _ => m end) l LNull.
Definition text_of (x : res val) : res str := do v <- x; text (demo BMySql) v.
Definition W80 : world := pure_world (with_be (demo BSql) BMySql).
Definition users (x : res val) : option (list (literal * literal)) :=
  match text_of x with
  | Ok s => match read_statement mysql_sql s with Some st => Prop_Server.shown (changed demo_server has_column greatest shop st) | None => None end
  | Err _ => None
  end.
Example C80_example :
  text_of (sel_run W80 buyers) = Ok (lit "SELECT `name` FROM `t` WHERE `id` IN (SELECT `owner` FROM `o` AS `x` WHERE `x`.`owner` = `t`.`id` AND `total` > 10)") /\
  chosen BMySql demo_server has_column greatest shop [] buyers = Some [[Cell (LText (lit "it's"))]] /\
  text_of (delete_run W80 (lit "t") [WObjects [without_orders]]) = Ok (lit "DELETE FROM `t` WHERE NOT(EXISTS(SELECT * FROM `o` WHERE `owner` = `t`.`id`))") /\
  users (delete_run W80 (lit "t") [WObjects [without_orders]]) = Some [(LInt 1, LText (lit "a")); (LInt 3, LText (lit "it's"))] /\
  text_of (update_run W80 (lit "t") [] [(lit "name", vs "z")] [WObjects [latest]]) = Ok (lit "UPDATE `t` SET `name` = 'z' WHERE `id` = (SELECT MAX(`owner`) FROM `o`)") /\
  users (update_run W80 (lit "t") [] [(lit "name", vs "z")] [WObjects [latest]]) = Some [(LInt 1, LText (lit "a")); (LInt 2, LNull); (LInt 3, LText (lit "z"))].
Proof. repeat split; vm_compute; reflexivity. Qed.
(** A query with two columns is no value: the server refuses, and the rows asked for make no sense. *)
Definition pairs80 : nsel := NSel (CNames [lit "id"; lit "owner"]) (lit "o") None [].
Example C80_refused : let q := NSel (CNames []) (lit "t") None [WPairs two [(lit "id", SSub (Some RIn) pairs80)]] in
  chosen BMySql demo_server has_column greatest shop [] q = None /\
  match text_of (sel_run W80 q) with
  | Ok s => match read_statement mysql_sql s with Some st => returned demo_server has_column greatest shop st = None | None => False end
  | Err _ => False
  end.
Proof. split; vm_compute; reflexivity. Qed.
