(** Specification: what rendering may do to an object. *)
From Verif Require Import Base Value Render ParseArgs Build Queries SpecClauses.

(** The tables a query lists itself. *)
Definition tables_of (v : val) : list (table val) :=
  match v with
  | VSelect q => s_tabs q
  | VInsert q => i_tabs q
  | VUpdate q => u_tabs q
  | VDelete q => d_tabs q ++ d_refs q
  | _ => []
  end.
(** No table anywhere inside has two joins. *)
Inductive simple (v : val) : Prop :=
| simple_intro : (forall t, In t (tables_of v) -> (List.length (tb_joins t) <= 1)%nat) ->
    (forall x, In x (children v) -> simple x) -> simple v.
Definition container (v : val) : Prop := match v with VSeq _ _ | VDict _ => True | _ => False end.
(** Such tables do not occur inside joined tables, ON conditions, lists and dictionaries. *)
Inductive plainly_joined (v : val) : Prop :=
| pj_intro : (container v -> simple v) ->
    (forall t x, In t (tables_of v) -> In x (flat_map join_vals (tb_joins t)) -> simple x) ->
    (forall x, In x (children v) -> plainly_joined x) -> plainly_joined v.

(** The object after any of the tables inside were minimised, in any order. *)
Section Rel.
  Context (E : env) (R : val -> val -> Prop).
  Definition pair2 (p q : val * val) : Prop := R (fst p) (fst q) /\ R (snd p) (snd q).
  Definition fst2 {B} (p q : val * B) : Prop := R (fst p) (fst q) /\ snd p = snd q.
  Definition join2 (i j : join val) : Prop :=
    j_type i = j_type j /\ R (j_name i) (j_name j) /\ R (j_alias i) (j_alias j) /\ Forall2 R (j_ons i) (j_ons j).
  Definition minimised (js js' : list (join val)) : Prop := js' = js \/ minimize (text E) js = Ok js'.
  Definition table2 (t u : table val) : Prop :=
    R (tb_name t) (tb_name u) /\ R (tb_alias t) (tb_alias u) /\
    exists js1 js2, minimised (tb_joins t) js1 /\ Forall2 join2 js1 js2 /\ minimised js2 (tb_joins u).
  Inductive opt2 : option val -> option val -> Prop :=
  | opt2_none : opt2 None None
  | opt2_some : forall x y, R x y -> opt2 (Some x) (Some y).
  Definition out2 (a b : outfile val) : Prop :=
    opt2 (o_file a) (o_file b) /\ opt2 (o_fields a) (o_fields b) /\ opt2 (o_lines a) (o_lines b) /\ opt2 (o_encl a) (o_encl b).
  Definition sel2 (p q : selq val) : Prop :=
    s_opts p = s_opts q /\ Forall2 pair2 (s_cols p) (s_cols q) /\ Forall2 table2 (s_tabs p) (s_tabs q) /\
    Forall2 R (s_where p) (s_where q) /\ Forall2 fst2 (s_group p) (s_group q) /\ Forall2 R (s_having p) (s_having q) /\
    Forall2 fst2 (s_order p) (s_order q) /\ s_limit p = s_limit q /\ out2 (s_out p) (s_out q) /\ s_forupd p = s_forupd q.
  Definition ins2 (p q : insq val) : Prop :=
    i_replace p = i_replace q /\ i_ignore p = i_ignore q /\ Forall2 table2 (i_tabs p) (i_tabs q) /\
    Forall2 (Forall2 R) (i_rows p) (i_rows q) /\ Forall2 R (i_dup p) (i_dup q) /\ i_conflict p = i_conflict q /\ Forall2 R (i_upd p) (i_upd q).
  Definition upd2 (p q : updq val) : Prop :=
    u_ignore p = u_ignore q /\ Forall2 table2 (u_tabs p) (u_tabs q) /\ Forall2 R (u_vals p) (u_vals q) /\
    Forall2 R (u_where p) (u_where q) /\ u_allow p = u_allow q.
  Definition del2 (p q : delq val) : Prop :=
    d_ignore p = d_ignore q /\ Forall2 table2 (d_tabs p) (d_tabs q) /\ Forall2 table2 (d_refs p) (d_refs q) /\
    Forall2 R (d_where p) (d_where q) /\ d_allow p = d_allow q.
End Rel.
Inductive touch (E : env) : val -> val -> Prop :=
| t_same : forall v, touch E v v
| t_sqlv : forall x y, touch E x y -> touch E (VSqlV x) (VSqlV y)
| t_sqlr : forall x y, touch E x y -> touch E (VSqlR x) (VSqlR y)
| t_rel : forall k x y, touch E x y -> touch E (VRel k x) (VRel k y)
| t_cond : forall k c c' r x y, touch E c c' -> touch E x y -> touch E (VCond k c r x) (VCond k c' r y)
| t_value : forall c c' x y, touch E c c' -> touch E x y -> touch E (VValue c x) (VValue c' y)
| t_conds : forall l m, Forall2 (touch E) l m -> touch E (VConds l) (VConds m)
| t_coc : forall o a a' b b', touch E a a' -> touch E b b' -> touch E (VCoC o a b) (VCoC o a' b')
| t_not : forall l m, Forall2 (touch E) l m -> touch E (VNot l) (VNot m)
| t_exists : forall x y, touch E x y -> touch E (VExists x) (VExists y)
| t_agg : forall k d x y, touch E x y -> touch E (VAgg k d x) (VAgg k d y)
| t_concat : forall l m, Forall2 (pair2 (touch E)) l m -> touch E (VConcat l) (VConcat m)
| t_gc : forall l m o o' s s', Forall2 (pair2 (touch E)) l m -> Forall2 (fst2 (touch E)) o o' -> touch E s s' ->
    touch E (VGroupConcat l o s) (VGroupConcat m o' s')
| t_convert : forall x y ty, touch E x y -> touch E (VConvert x ty) (VConvert y ty)
| t_select : forall p q, sel2 E (touch E) p q -> touch E (VSelect p) (VSelect q)
| t_union : forall t a a' b b', touch E a a' -> touch E b b' -> touch E (VUnion t a b) (VUnion t a' b')
| t_insert : forall p q, ins2 E (touch E) p q -> touch E (VInsert p) (VInsert q)
| t_update : forall p q, upd2 E (touch E) p q -> touch E (VUpdate p) (VUpdate q)
| t_delete : forall p q, del2 E (touch E) p q -> touch E (VDelete p) (VDelete q).
(** Any number of renderings. *)
Inductive touches (E : env) : val -> val -> Prop :=
| ts_none : forall v, touches E v v
| ts_more : forall v w x, touch E v w -> touches E w x -> touches E v x.

(** ** Rendering between the calls *)
(** No outer joins of different kinds of the same table on the same conditions. *)
Definition one_outer_kind (E : env) (js : list (join val)) : Prop := forall i j, In i js -> In j js -> join_equal E i j = Ok true ->
  j_type i = JInner \/ j_type j = JInner \/ j_type i = j_type j.
Inductive opkind := AddsJoin | AddsOn | AddsOther.
Definition sel_kind (o : selop) : opkind := match o with SJoin _ _ => AddsJoin | SOn _ _ => AddsOn | _ => AddsOther end.
Definition upd_kind (o : updop) : opkind := match o with UJoin _ _ => AddsJoin | UOn _ _ => AddsOn | _ => AddsOther end.
Definition del_kind (o : delop) : opkind := match o with DJoin _ _ => AddsJoin | DOn _ _ => AddsOn | _ => AddsOther end.
Section Watched.
  Context {Q Op : Type} (E : env) (obj : Q -> val) (step : world -> Q -> Op -> Q * outcome) (kind : Op -> opkind).
  (** The same calls with renderings (complete or not) in between; [os] are the
      outcomes of the calls.  on() is only called when join() was called since the
      last rendering: [b] says so. *)
  Definition since (b : bool) (o : Op) (r : outcome) : bool :=
    match kind o, r with AddsJoin, Ok _ => true | _, _ => b end.
  Inductive watched : bool -> Q -> list (world * Op) -> Q -> list outcome -> Prop :=
  | wt_end : forall b q, watched b q [] q []
  | wt_show : forall b q q' H z os, touch E (obj q) (obj q') -> watched false q' H z os -> watched b q H z os
  | wt_call : forall b q W o H z os, (kind o = AddsOn -> b = true) ->
      watched (since b o (snd (step W q o))) (fst (step W q o)) H z os ->
      watched b q ((W, o) :: H) z (snd (step W q o) :: os).
  (** Without any rendering: the states and the outcomes. *)
  Fixpoint visited (q : Q) (H : list (world * Op)) : list Q :=
    q :: match H with [] => [] | (W, o) :: r => visited (fst (step W q o)) r end.
  Fixpoint outcomes (q : Q) (H : list (world * Op)) : list outcome :=
    match H with [] => [] | (W, o) :: r => snd (step W q o) :: outcomes (fst (step W q o)) r end.
  (** No part has a table with two joins inside, and there are no joins to be added or
      no table is outer joined twice with the same conditions in different kinds. *)
  Definition calm (q : Q) (H : list (world * Op)) : Prop :=
    (forall s x, In s (visited q H) -> In x (children (obj s)) -> simple x) /\
    ((forall W o, In (W, o) H -> kind o = AddsOther) \/
     (forall s t, In s (visited q H) -> In t (tables_of (obj s)) -> one_outer_kind E (tb_joins t))).
End Watched.
Definition ins_kind (o : insop) : opkind := AddsOther.
