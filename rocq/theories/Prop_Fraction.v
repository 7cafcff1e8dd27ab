(** Numbers that are not integers, from the arguments of the calls to the rows: C96.
    Which rows the statements touch is said by C67-C70, whose data include such numbers (SpecProgram.v, [datum]).
    Specification: SpecRead.v, SpecServer.v, SpecSql.v. *)
From Coq Require Import QArith Qabs.
From Verif Require Import Base NumFmt Value Backend Eq Render ParseArgs Build Queries History Demo
  SpecLex SpecRead SpecRef SpecLogic SpecHistory SpecArgs SpecErrors SpecWhole SpecSql SpecServer SpecProgram PfFraction Prop_Server Prop_Program.
Open Scope N_scope.

(** C96.  The literal the server reads for a finite float or Decimal is within half a unit of the fifth decimal of it. *)
Theorem C96_number : forall b v x, (v = VFloat x \/ v = VDec x) -> forall q, num_value x = Some q ->
  exists neg whole frac w, literal_of b v = Some (LNumber neg whole frac) /\
    read_decimal ((if neg then [45] else []) ++ whole ++ [46] ++ frac) = Some w /\
    List.length frac = 5%nat /\ (Qabs (w - q) <= 5 # 1000000)%Q.
Proof. exact number_literal. Qed.
Print Assumptions C96_number.

(** ** Example: update('t').set(name=2.5).where('id', LT(Decimal('2.25'))) *)
Example C96_literal : literal_of BSql (VFloat (NFin true 5 2)) = Some (LNumber true (lit "2") (lit "50000")) /\ num_value (NFin true 5 2) = Some (-5 # 2)%Q.
Proof. split; vm_compute; reflexivity. Qed.
Definition calls96 : list (backend * updop) :=
  [(BSql, USet [] [(lit "name", VFloat (NFin false 5 2))]); (BSql, UWhere [vs "id"; VRel RLt (VDec (NFin false 225 100))] [])].
Definition given96 : list (list (val * val) * list (val * val)) :=
  [([(vs "name", VFloat (NFin false 5 2))], []); ([], [(vs "id", VRel RLt (VDec (NFin false 225 100)))])].
Example C96_ok : Forall2 (fun bo g => update_call BMySql (where_call BMySql) (snd bo) g) calls96 given96 /\
  List.concat (map fst given96) <> [] /\ none_returns (stores BMySql (List.concat (map fst given96))).
Proof.
  split; [|split; [discriminate|]].
  - constructor; [|constructor; [|constructor]]; cbn [snd fst update_call].
    + split; [|reflexivity]. split; [no_dict|]. split; [now left|]. split; [apply one_keyword|]. constructor; [|constructor].
      split; [eexists; split; [reflexivity|fits]|]. left. vm_compute. discriminate.
    + split; [reflexivity|]. split; [no_dict|]. split; [right; exists (vs "id"); split; [now left|reflexivity]|]. split.
      * apply pa_two; [data|]. split; [reflexivity|constructor].
      * constructor; [|constructor]. split; [named|vm_compute; discriminate].
  - apply apart_never. repeat constructor; cbn; intuition discriminate.
Qed.
Definition update96 : updq val := calls upd_step empty_update (program (demo BSql) ((BSql, UTable (vs "t")) :: calls96)).
(** A server that compares an integer with a number. *)
Definition whole_of (l : literal) : option Q :=
  match l with
  | LInt z => Some (z # 1)%Q
  | LNumber neg a f => read_decimal ((if neg then [45] else []) ++ a ++ [46] ++ f)
  | _ => None
  end.
Definition server96 : server := MkServer
  (fun o x y => match o, whole_of x, whole_of y with CLt, Some p, Some q => negb (Qle_bool q p) | _, _, _ => false end) (fun _ _ _ => LNull).
Example C96_example : text (demo BMySql) (VUpdate update96) = Ok (lit "UPDATE `t` SET `name` = 2.50000 WHERE `id` < 2.25000") /\
  match understood (dialect_of BMySql) (lit "UPDATE `t` SET `name` = 2.50000 WHERE `id` < 2.25000") with
  | Some st => shown (execute server96 st demo_db) | None => None end =
  Some [(LInt 1, LNumber false (lit "2") (lit "50000")); (LInt 2, LNumber false (lit "2") (lit "50000")); (LInt 3, LText (lit "it's"))].
Proof. split; vm_compute; reflexivity. Qed.
