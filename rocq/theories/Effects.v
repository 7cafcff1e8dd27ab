(** The effect of rendering on the rendered object.  Table.__str__ replaces the joins
    of the table by the minimised ones (tables.py:80-81, 143-167) before it renders
    them; nothing else is changed by str() (query.py:20-28 and the other __str__).

    [after E v] is the object [v] after one successful str(v).  Simplifications: an
    object occurring in several places is followed in each place separately, and the
    few parts which str() leaves out (e.g. options of INTO OUTFILE without a file) are
    taken to be rendered too; [touch] in SpecEffects.v covers all other orders. *)
From Verif Require Import Base NumFmt Value Backend Eq Render.
Open Scope N_scope.

Definition map_pair (f : val -> val) (p : val * val) : val * val := (f (fst p), f (snd p)).
Definition map_fst {B} (f : val -> val) (p : val * B) : val * B := (f (fst p), snd p).
Definition map_join (f : val -> val) (j : join val) : join val :=
  MkJoin (j_type j) (f (j_name j)) (f (j_alias j)) (map f (j_ons j)).
(** Table.__str__: tables.py:71-90. *)
Definition settle_table (E : env) (f : val -> val) (t : table val) : table val :=
  MkTable (f (tb_name t)) (f (tb_alias t))
    (map (map_join f) (match minimize (text E) (tb_joins t) with Ok js => js | Err _ => tb_joins t end)).
Definition map_out (f : val -> val) (o : outfile val) : outfile val :=
  MkOutfile (option_map f (o_file o)) (option_map f (o_fields o)) (option_map f (o_lines o)) (option_map f (o_encl o)).
(** Query.__str__ renders every part: query.py:20-28. *)
Definition settle_sel (E : env) (f : val -> val) (q : selq val) : selq val :=
  MkSel (s_opts q) (map (map_pair f) (s_cols q)) (map (settle_table E f) (s_tabs q)) (map f (s_where q))
    (map (map_fst f) (s_group q)) (map f (s_having q)) (map (map_fst f) (s_order q)) (s_limit q) (map_out f (s_out q)) (s_forupd q).
Definition settle_ins (E : env) (f : val -> val) (q : insq val) : insq val :=
  MkIns (i_replace q) (i_ignore q) (map (settle_table E f) (i_tabs q)) (map (map f) (i_rows q)) (map f (i_dup q)) (i_conflict q) (map f (i_upd q)).
Definition settle_upd (E : env) (f : val -> val) (q : updq val) : updq val :=
  MkUpd (u_ignore q) (map (settle_table E f) (u_tabs q)) (map f (u_vals q)) (map f (u_where q)) (u_allow q).
Definition settle_del (E : env) (f : val -> val) (q : delq val) : delq val :=
  MkDel (d_ignore q) (map (settle_table E f) (d_tabs q)) (map (settle_table E f) (d_refs q)) (map f (d_where q)) (d_allow q).
Fixpoint after_n (E : env) (n : nat) (v : val) : val :=
  match n with
  | O => v
  | S k =>
      let f := after_n E k in
      match v with
      | VSeq s l => VSeq s (map f l)
      | VDict l => VDict (map (map_pair f) l)
      | VSqlV x => VSqlV (f x)
      | VSqlR x => VSqlR (f x)
      | VRel r x => VRel r (f x)
      | VCond c a r x => VCond c (f a) r (f x)
      | VValue a x => VValue (f a) (f x)
      | VConds ps => VConds (map f ps)
      | VCoC o a b => VCoC o (f a) (f b)
      | VNot ps => VNot (map f ps)
      | VExists x => VExists (f x)
      | VAgg a d x => VAgg a d (f x)
      | VConcat cols => VConcat (map (map_pair f) cols)
      | VGroupConcat cols ords sep => VGroupConcat (map (map_pair f) cols) (map (map_fst f) ords) (f sep)
      | VConvert x ty => VConvert (f x) ty
      | VSelect q => VSelect (settle_sel E f q)
      | VUnion t a b => VUnion t (f a) (f b)
      | VInsert q => VInsert (settle_ins E f q)
      | VUpdate q => VUpdate (settle_upd E f q)
      | VDelete q => VDelete (settle_del E f q)
      | _ => v
      end
  end.
Definition after (E : env) (v : val) : val := after_n E (depth v) v.
