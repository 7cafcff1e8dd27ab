(** Short programs and their effect on a table, from the arguments of the calls to the rows: C67-C70.
    Specification: SpecProgram.v, SpecArgs.v, SpecSql.v. *)
From Coq Require Import Lia Permutation Sorted.
From Verif Require Import Base NumFmt Value Backend Eq Render ParseArgs Build Queries History Demo
  SpecLex SpecRef SpecLogic SpecHistory SpecArgs SpecErrors SpecWhole SpecSql SpecServer SpecProgram PfProgram Prop_Server.
Open Scope N_scope.

(** C67.  delete_from(t) followed by calls of where, allow_delete_all, forbid_delete_all, ignore. *)
Theorem C67_delete : forall E b sv db b0 t H given, good_name (quote_of b) t ->
  Forall2 (fun bo ps => delete_call (where_call b) (snd bo) ps) H given ->
  List.concat given <> [] \/ delete_confirmed (map snd H) ->
  let h := program E ((b0, DFrom [VStr t] []) :: H) in
  let q := calls del_step empty_delete h in
  all_succeed del_step empty_delete h /\
  exists s st db', text (with_be E b) (VDelete q) = Ok s /\ understood (dialect_of b) s = Some st /\ execute sv st db = Some db' /\
    db' (name_segments t) = filter (fun r => negb (matches b sv (List.concat given) r)) (db (name_segments t)) /\
    (forall p, p <> name_segments t -> db' p = db p).
Proof. intros E b. exact (pairs_delete b E). Qed.
Print Assumptions C67_delete.

(** C68.  update(t) followed by calls of set, where, allow_update_all, forbid_update_all, ignore. *)
Theorem C68_update : forall E b sv db b0 t H given, good_name (quote_of b) t ->
  Forall2 (fun bo g => update_call b (where_call b) (snd bo) g) H given ->
  let sets := List.concat (map fst given) in let pairs := List.concat (map snd given) in
  sets <> [] -> none_returns (stores b sets) -> pairs <> [] \/ update_confirmed (map snd H) ->
  let h := program E ((b0, UTable (VStr t)) :: H) in
  let q := calls upd_step empty_update h in
  all_succeed upd_step empty_update h /\
  exists s st db', text (with_be E b) (VUpdate q) = Ok s /\ understood (dialect_of b) s = Some st /\ execute sv st db = Some db' /\
    Forall2 (fun old new => forall c, new c =
      if matches b sv pairs old
      then match last_for c (stores b sets) with Some l => l | None => old c end
      else old c) (db (name_segments t)) (db' (name_segments t)) /\
    (forall p, p <> name_segments t -> db' p = db p).
Proof. intros E b. exact (pairs_update b E). Qed.
Print Assumptions C68_update.

(** C69.  insert_into(t) followed by calls of values, ignore. *)
Theorem C69_insert : forall E b sv db b0 t H given, good_name (quote_of b) t ->
  Forall2 (fun bo g => insert_call b (snd bo) g) H given ->
  let rows := List.concat given in
  List.concat rows <> [] ->
  let h := program E ((b0, IInto (VStr t)) :: H) in
  let q := calls ins_step empty_insert h in
  all_succeed ins_step empty_insert h /\
  exists s st db' new, text (with_be E b) (VInsert q) = Ok s /\ understood (dialect_of b) s = Some st /\ execute sv st db = Some db' /\
    db' (name_segments t) = db (name_segments t) ++ new /\
    Forall2 (fun ps r => forall c, r c = match last_for c (stores b ps) with Some l => l | None => LNull end) rows new /\
    (forall p, p <> name_segments t -> db' p = db p).
Proof. exact insert_program. Qed.
Print Assumptions C69_insert.

(** C70.  select(...) with calls of columns, from_, where, order_by, limit, offset, for_update. *)
Theorem C70_select : forall E b sv db t H given, good_name (quote_of b) t ->
  Forall2 (fun bo g => select_call b (where_call b) t (supper E) (snd bo) g) H given ->
  In (SFrom [VStr t] []) (map snd H) ->
  bounded (wanted_limit (map snd H)) -> bounded (wanted_offset (map snd H)) ->
  (forall c a k v, In (c, VStr a) (flat_map ab_columns given) -> In (VStr k, v) (flat_map ab_order given) -> name_segments a <> name_segments k) ->
  let h := program E H in
  let q := calls sel_step empty_select h in
  all_succeed sel_step empty_select h /\
  exists s st cols order, text (with_be E b) (VSelect q) = Ok s /\ understood (dialect_of b) s = Some st /\
    first_occurrences (flat_map ab_columns given) cols /\ SpecLists.ordered_list (supper E) (flat_map ab_order given) order /\
    forall le out, answers sv le db st out <->
      program_answers le db (name_segments t) (columns_asked cols) (matches b sv (flat_map ab_where given)) order
        (wanted_limit (map snd H)) (wanted_offset (map snd H)) out.
Proof. intros E b. exact (pairs_select b E). Qed.
Print Assumptions C70_select.

(** ** Examples *)
Ltac named := eexists; split; [reflexivity|]; split; [cbn; intuition discriminate|vm_compute; discriminate].
Ltac no_dict := split; [repeat constructor; cbn; intuition discriminate|let i := fresh in let H := fresh in intros i H; discriminate H].

(** The argument is no list. *)
Ltac data := let l := fresh in let H := fresh in intros l [H|H]; discriminate H.

(** where('name', None).where(id=[1, 2]) *)
Definition where67 : list (backend * delop) :=
  [(BMySql, DWhere [vs "name"; VNone] []); (BMySql, DWhere [] [(lit "id", VSeq KList [VInt 1; VInt 2])])].
Definition given67 : list (list (val * val)) := [[(vs "name", VNone)]; [(vs "id", VSeq KList [VInt 1; VInt 2])]].
Lemma one_keyword : forall c v, pair_args [] [(c, v)] [(VStr c, v)].
Proof.
  intros c v. apply (pa_items [] [] [(c, v)] [(VStr c, v)]); [discriminate|intros a b H; discriminate H|constructor|].
  split; [reflexivity|]. repeat constructor.
Qed.
Example C67_ok : good_name (quote_of BMySql) (lit "t") /\ Forall2 (fun bo ps => delete_call (where_call BMySql) (snd bo) ps) where67 given67.
Proof.
  split; [split; [cbn; intuition discriminate|vm_compute; discriminate]|].
  constructor; [|constructor; [|constructor]]; cbn [snd delete_call].
  - split; [no_dict|]. split; [right; exists (vs "name"); split; [now left|reflexivity]|]. split.
    + apply pa_two; [data|]. split; [reflexivity|constructor].
    + constructor; [|constructor]. split; [named|exact Logic.I].
  - split; [no_dict|]. split; [now left|]. split; [apply one_keyword|]. constructor; [|constructor].
    split; [named|]. split; [now left|]. split; [discriminate|]. repeat constructor.
Qed.
Definition delete67 : delq val := calls del_step empty_delete (program (demo BSql) ((BMySql, DFrom [vs "t"] []) :: where67)).
Example C67_example : text (demo BMySql) (VDelete delete67) = Ok (lit "DELETE FROM `t` WHERE `name` IS NULL AND `id` IN (1, 2)") /\
  run BMySql (VDelete delete67) = Some [(LInt 1, LText (lit "a")); (LInt 3, LText (lit "it's"))].
Proof. split; vm_compute; reflexivity. Qed.

(** set(name='x').where('id', GE(2)).set([('name', 'y')]) *)
Definition calls68 : list (backend * updop) :=
  [(BSql, USet [] [(lit "name", vs "x")]); (BSql, UWhere [vs "id"; VRel RGe (VInt 2)] []); (BSql, USet [VSeq KList [VSeq KTuple [vs "name"; vs "y"]]] [])].
Definition given68 : list (list (val * val) * list (val * val)) :=
  [([(vs "name", vs "x")], []); ([], [(vs "id", VRel RGe (VInt 2))]); ([(vs "name", vs "y")], [])].
Example C68_ok : Forall2 (fun bo g => update_call BMySql (where_call BMySql) (snd bo) g) calls68 given68 /\
  List.concat (map fst given68) <> [] /\ none_returns (stores BMySql (List.concat (map fst given68))) /\ List.concat (map snd given68) <> [].
Proof.
  split; [|split; [discriminate|split; [|discriminate]]].
  - constructor; [|constructor; [|constructor; [|constructor]]]; cbn [snd fst update_call].
    + split; [|reflexivity]. split; [no_dict|]. split; [now left|]. split; [apply one_keyword|]. constructor; [|constructor].
      split; [eexists; split; [reflexivity|fits]|]. left. cbn [snd datum vs]. fits.
    + split; [reflexivity|]. split; [no_dict|]. split; [right; exists (vs "id"); split; [now left|reflexivity]|]. split.
      * apply pa_two; [data|]. split; [reflexivity|constructor].
      * constructor; [|constructor]. split; [named|exact Logic.I].
    + split; [|reflexivity]. split; [no_dict|]. split; [right; eexists; split; [now left|reflexivity]|]. split.
      * apply (pa_list _ [VSeq KTuple [vs "name"; vs "y"]] [(vs "name", vs "y")] [] []); [now left| |split; [reflexivity|constructor]].
        constructor; [|constructor]. eexists. split; [right; reflexivity|constructor].
      * constructor; [|constructor]. split; [eexists; split; [reflexivity|fits]|]. left. cbn [snd datum vs]. fits.
  - intros c v pre mid post H w I. apply (f_equal (@List.length _)) in H.
    change (2%nat = List.length (pre ++ (c, v) :: mid ++ (c, v) :: post)) in H. rewrite app_length in H. cbn [List.length] in H. rewrite app_length in H.
    cbn [List.length] in H. destruct mid; [destruct I|]. cbn [List.length] in H. lia.
Qed.
Definition update68 : updq val := calls upd_step empty_update (program (demo BSql) ((BSql, UTable (vs "t")) :: calls68)).
Example C68_example : text (demo BMySql) (VUpdate update68) = Ok (lit "UPDATE `t` SET `name` = 'x', `name` = 'y' WHERE `id` >= 2") /\
  run BMySql (VUpdate update68) = Some [(LInt 1, LText (lit "a")); (LInt 2, LText (lit "y")); (LInt 3, LText (lit "y"))].
Proof. split; vm_compute; reflexivity. Qed.

(** values(id=4).values({'name': 'z', 'id': 5}) *)
Definition calls69 : list (backend * insop) :=
  [(BSqlite, IValues [] [(lit "id", VInt 4)]); (BSqlite, IValues [VDict [(vs "name", vs "z"); (vs "id", VInt 5)]] [])].
Definition given69 : list (list (list (val * val))) := [[[(vs "id", VInt 4)]]; [[(vs "id", VInt 5); (vs "name", vs "z")]]].
Lemma apart_never : forall l, NoDup (map fst l) -> none_returns l.
Proof.
  intros l D c v pre mid post -> w I. exfalso. rewrite map_app in D. cbn [map fst] in D. apply NoDup_remove_2 in D. apply D.
  rewrite in_app_iff. right. rewrite map_app. apply in_or_app. left. exact (in_map fst _ _ I).
Qed.
Example C69_ok : Forall2 (fun bo g => insert_call BSqlite (snd bo) g) calls69 given69 /\ List.concat (List.concat given69) <> [].
Proof.
  split; [|discriminate]. constructor; [|constructor; [|constructor]]; cbn [snd insert_call]; eexists; (split; [reflexivity|]); split.
  - split; [no_dict|]. split; [now left|]. split; [apply one_keyword|]. constructor; [|constructor].
    split; [eexists; split; [reflexivity|fits]|]. left. exact Logic.I.
  - apply apart_never. repeat constructor; cbn; intuition discriminate.
  - split; [|split; [right; eexists; split; [now left|reflexivity]|split]].
    + split; [constructor|]. intros items H. injection H as <-. split; [repeat constructor; cbn; intuition discriminate|].
      left. intros k [<-|[<-|[]]]; eexists; reflexivity.
    + apply pa_dict. split; [apply perm_swap|]. repeat constructor.
    + constructor; [|constructor; [|constructor]]; (split; [eexists; split; [reflexivity|fits]|]); left; [exact Logic.I|cbn [snd datum vs]; fits].
  - apply apart_never. repeat constructor; cbn; intuition discriminate.
Qed.
Definition insert69 : insq val := calls ins_step empty_insert (program (demo BSql) ((BSqlite, IInto (vs "t")) :: calls69)).
Example C69_example : text (demo BSqlite) (VInsert insert69) = Ok (lit "INSERT INTO ""t"" (""id"", ""name"") VALUES (4, NULL), (5, 'z')") /\
  run BSqlite (VInsert insert69) =
    Some [(LInt 1, LText (lit "a")); (LInt 2, LNull); (LInt 3, LText (lit "it's")); (LInt 4, LNull); (LInt 5, LText (lit "z"))].
Proof. split; vm_compute; reflexivity. Qed.

(** columns('id', ('name', 'n')).from_('t').where('id', GT(1)).order_by(('id', 'desc')).limit(1) *)
Definition calls70 : list (backend * selop) :=
  [(BSql, SColumns [vs "id"; VSeq KTuple [vs "name"; vs "n"]] []); (BSql, SFrom [vs "t"] []); (BSql, SWhere [vs "id"; VRel RGt (VInt 1)] []);
   (BSql, SOrderBy [VSeq KTuple [vs "id"; vs "desc"]] []); (BSql, SLimit (VInt 1) VNone)].
Definition given70 : list (asked_by (val * val)) :=
  [MkAsked [(vs "id", VNone); (vs "name", vs "n")] [] []; MkAsked [] [] []; MkAsked [] [(vs "id", VRel RGt (VInt 1))] [];
   MkAsked [] [] [(vs "id", vs "desc")]; MkAsked [] [] []].
Example C70_ok : Forall2 (fun bo g => select_call BSql (where_call BSql) (lit "t") (supper (demo BSql)) (snd bo) g) calls70 given70 /\
  bounded (wanted_limit (map snd calls70)) /\ bounded (wanted_offset (map snd calls70)) /\
  forall c a k v, In (c, VStr a) (flat_map ab_columns given70) -> In (VStr k, v) (flat_map ab_order given70) -> name_segments a <> name_segments k.
Proof.
  split; [|split; [cbn; discriminate|split; [exact Logic.I|]]].
  - constructor; [|constructor; [|constructor; [|constructor; [|constructor; [|constructor]]]]]; cbn [snd select_call ab_columns ab_where ab_order].
    + split; [no_dict|]. split; [|split; [|split; reflexivity]].
      * apply (aa_items _ [(vs "id", VNone); (vs "name", vs "n")] [] []); [intros i H; discriminate H| |split; [reflexivity|constructor]].
        constructor; [right; split; [data|reflexivity]|]. constructor; [|constructor]. left. eexists. split; [right; reflexivity|constructor].
      * constructor; [|constructor; [|constructor]]; (split; [named|]); [left; reflexivity|right; named].
    + repeat split.
    + split; [|split; reflexivity]. split; [no_dict|]. split; [right; exists (vs "id"); split; [now left|reflexivity]|]. split.
      * apply pa_two; [data|]. split; [reflexivity|constructor].
      * constructor; [|constructor]. split; [named|exact Logic.I].
    + split; [no_dict|]. split; [|split; [|split; reflexivity]].
      * apply (aa_items _ [(vs "id", vs "desc")] [] []); [intros i H; discriminate H| |split; [reflexivity|constructor]].
        constructor; [|constructor]. left. eexists. split; [right; reflexivity|constructor].
      * constructor; [|constructor]. split; [named|]. exists Desc. right. eexists. split; [reflexivity|]. right. split; [vm_compute|]; reflexivity.
    + split; [|reflexivity]. split; [right; eexists; reflexivity|]. right. now left.
  - intros c a k v [H|[H|[]]] [H'|[]]; [discriminate H|]. injection H as <- <-. injection H' as <- <-. vm_compute. discriminate.
Qed.
Example C70_example :
  text (demo BSql) (VSelect (calls sel_step empty_select (program (demo BSql) calls70)))
  = Ok (lit "SELECT ""id"", ""name"" AS ""n"" FROM ""t"" WHERE ""id"" > 1 ORDER BY ""id"" DESC LIMIT 1") /\
  program_answers lit_le demo_db [lit "t"] [(vs "id", VNone); (vs "name", vs "n")] (matches BSql demo_server [(vs "id", VRel RGt (VInt 1))])
    [(vs "id", Desc)] (Some 1%Z) None [[(None, Cell (LInt 3)); (Some [lit "n"], Cell (LText (lit "it's")))]].
Proof.
  split; [vm_compute; reflexivity|].
  apply (pans lit_le demo_db [lit "t"] [(vs "id", VNone); (vs "name", vs "n")] (matches BSql demo_server [(vs "id", VRel RGt (VInt 1))])
    [(vs "id", Desc)] (Some 1%Z) None [row_of 3 (LText (lit "it's")); row_of 2 LNull]).
  - apply perm_swap.
  - repeat constructor.
Qed.
