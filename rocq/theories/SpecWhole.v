(** Specification: the string literals of a whole query.

    A query is an object built from names, values and other objects.  [role] says
    in which position an object stands.  Nothing here depends on how the text is
    produced: [blank] forgets the string values of a query, [written] lists the
    literals its text has to contain, in order, and [harmless] says which queries
    the property is about. *)
From Verif Require Import Base NumFmt Value SpecLex SpecRef.
Open Scope N_scope.

(** A position of a query: where a name is expected, where a value is expected,
    or a place for an SQL object only. *)
Inductive role := AsName | AsValue | AsSql.

(** A value that is a plain string in an ON condition is a column name. *)
Definition compared_as (k : condk) (x : val) : role :=
  match k, x with KOn, VStr _ => AsName | _, _ => AsValue end.

(** ** The same function at every value of a clause *)
Definition on_pair {A B} (f g : A -> B) (p : A * A) : B * B := match p with (a, b) => (f a, g b) end.
Definition on_fst {A B C} (f : A -> B) (p : A * C) : B * C := match p with (a, c) => (f a, c) end.
Definition on_option {A B} (f : A -> B) (o : option A) : option B :=
  match o with Some x => Some (f x) | None => None end.
Definition on_join {A B} (name sql : A -> B) (j : join A) : join B :=
  match j with MkJoin t n a ons => MkJoin t (name n) (name a) (map sql ons) end.
Definition on_table {A B} (name sql : A -> B) (t : table A) : table B :=
  match t with MkTable n a js => MkTable (name n) (name a) (map (on_join name sql) js) end.
Definition on_outfile {A B} (f : A -> B) (o : outfile A) : outfile B :=
  match o with MkOutfile a b c d => MkOutfile (on_option f a) (on_option f b) (on_option f c) (on_option f d) end.

(** ** Forgetting the string values *)

(** The string that stands for every string value. *)
Definition blank_string : str := lit "?".

Fixpoint blank (r : role) (v : val) : val :=
  match v with
  | VStr s => match r with AsValue => VStr blank_string | _ => v end
  | VSeq k l => VSeq k (map (blank r) l)
  | VSqlV x => VSqlV (blank AsValue x)
  | VSqlR x => VSqlR (blank AsName x)
  | VCond k c rk x => VCond k (blank AsName c) rk (blank (compared_as k x) x)
  | VValue c x => VValue (blank AsName c) (blank AsValue x)
  | VConds ps => VConds (map (blank AsSql) ps)
  | VCoC o a b => VCoC o (blank AsSql a) (blank AsSql b)
  | VNot ps => VNot (map (blank AsSql) ps)
  | VExists x => VExists (blank AsSql x)
  | VAgg k d e => VAgg k d (blank AsName e)
  | VConcat cols => VConcat (map (on_pair (blank AsName) (blank AsName)) cols)
  | VGroupConcat cols ords sep =>
      VGroupConcat (map (on_pair (blank AsName) (blank AsName)) cols)
        (map (on_fst (blank AsName)) ords)
        (* no separator is written for the empty string *)
        match sep with VStr [] => sep | _ => blank AsValue sep end
  | VConvert e ty => VConvert (blank AsName e) ty
  | VSelect (MkSel op c t w g h o l out fu) =>
      VSelect (MkSel op (map (on_pair (blank AsName) (blank AsName)) c)
        (map (on_table (blank AsName) (blank AsSql)) t)
        (map (blank AsSql) w) (map (on_fst (blank AsName)) g) (map (blank AsSql) h)
        (map (on_fst (blank AsName)) o) l (on_outfile (blank AsValue) out) fu)
  | VUnion t a b => VUnion t (blank AsSql a) (blank AsSql b)
  | VInsert (MkIns rp ig t rows dup cf upd) =>
      VInsert (MkIns rp ig (map (on_table (blank AsName) (blank AsSql)) t)
        (map (map (blank AsSql)) rows) (map (blank AsSql) dup) cf (map (blank AsSql) upd))
  | VUpdate (MkUpd ig t vs w al) =>
      VUpdate (MkUpd ig (map (on_table (blank AsName) (blank AsSql)) t)
        (map (blank AsSql) vs) (map (blank AsSql) w) al)
  | VDelete (MkDel ig t rf w al) =>
      VDelete (MkDel ig (map (on_table (blank AsName) (blank AsSql)) t)
        (map (on_table (blank AsName) (blank AsSql)) rf) (map (blank AsSql) w) al)
  | _ => v
  end.

(** ** The literals of a query *)

(** What a server reads when it is sent the string [s] as a literal in which quotes
    and backslashes are doubled and a line feed is written backslash n: [s] itself if
    the server knows backslash escapes (C01), else the text with those escapes (C02). *)
Definition as_read (d : dialect) (s : str) : str :=
  if d_backslash d then s
  else flat_map (fun c => if c =? 92 then [92; 92] else if c =? 10 then [92; 110] else [c]) s.

Definition from_option {A B} (f : A -> list B) (o : option A) : list B :=
  match o with Some x => f x | None => [] end.
Definition pair_written {A B} (f : A -> list B) (p : A * A) : list B := match p with (a, b) => f a ++ f b end.
Definition join_written {A B} (name sql : A -> list B) (j : join A) : list B :=
  match j with MkJoin _ n a ons => name n ++ name a ++ flat_map sql ons end.
Definition table_written {A B} (name sql : A -> list B) (t : table A) : list B :=
  match t with MkTable n a js => name n ++ name a ++ flat_map (join_written name sql) js end.
Definition out_written {A B} (f : A -> list B) (o : outfile A) : list B :=
  match o with MkOutfile a b c d =>
    match a with
    | None => []     (* INTO OUTFILE is written for a file name only *)
    | Some _ => from_option f a ++ from_option f b ++ from_option f c ++ from_option f d
    end end.

(** The columns of a multi-row INSERT, in the order they are written: every column of
    some row, once, sorted (C32). *)
Fixpoint in_order (x : str) (l : list str) : list str :=
  match l with [] => [x] | y :: r => if sltb x y then x :: l else y :: in_order x r end.
Fixpoint sorted_once (l : list str) : list str :=
  match l with
  | [] => []
  | x :: r => if existsb (seqb x) r then sorted_once r else in_order x (sorted_once r)
  end.
(** The last thing recorded for a column of a row. *)
Fixpoint last_for {A} (c : str) (row : list (str * A)) : option A :=
  match row with
  | [] => None
  | (c', x) :: r => match last_for c r with Some y => Some y | None => if seqb c c' then Some x else None end
  end.
Definition rows_written {A} (rows : list (list (str * list A))) : list A :=
  let columns := sorted_once (flat_map (map fst) rows) in
  flat_map (fun row => flat_map (fun c => from_option (fun x => x) (last_for c row)) columns) rows.

Definition is_in (rk : relk) : bool := match rk with RIn | RNotIn => true | _ => false end.
Definition holds_none (x : val) : bool :=
  match x with VSeq _ l => existsb (fun y => match y with VNone => true | _ => false end) l | _ => false end.
Definition only_none (x : val) : bool :=
  match x with VSeq _ l => forallb (fun y => match y with VNone => true | _ => false end) l | _ => false end.

Fixpoint written (b : backend) (r : role) (v : val) : list str :=
  match v with
  | VStr s => match r with AsValue => [as_read (dialect_of b) s] | _ => [] end
  | VBytes x => match b with BPostgres => [lit "\x" ++ hexlify x] | _ => [hexlify x] end
  | VDate d => [date_iso d]
  | VDatetime d t => [datetime_iso d t]
  | VSeq _ l => flat_map (written b r) l
  | VSqlV x => written b AsValue x
  | VSqlR x => written b AsName x
  | VCond k c rk x =>
      (* a list with NULLs: the column is written twice, C13 *)
      if is_in rk && holds_none x && negb (only_none x)
      then written b AsName c ++ written b AsValue x ++ written b AsName c
      else written b AsName c ++ written b (compared_as k x) x
  | VValue c x => written b AsName c ++ written b AsValue x
  | VConds ps | VNot ps => flat_map (written b AsSql) ps
  | VCoC _ x y => written b AsSql x ++ written b AsSql y
  | VExists x => written b AsSql x
  | VAgg _ _ e => written b AsName e
  | VConcat cols => flat_map (pair_written (written b AsName)) cols
  | VGroupConcat cols ords sep =>
      flat_map (pair_written (written b AsName)) cols ++ flat_map (fun p => match p with (x, _) => written b AsName x end) ords
      ++ match sep with VStr [] | VBytes [] => [] | _ => written b AsValue sep end
  | VConvert e _ => written b AsName e
  | VSelect (MkSel _ c t w g h o _ out _) =>
      flat_map (pair_written (written b AsName)) c
      ++ flat_map (table_written (written b AsName) (written b AsSql)) t
      ++ flat_map (written b AsSql) w
      ++ flat_map (fun p => match p with (x, _) => written b AsName x end) g
      ++ flat_map (written b AsSql) h
      ++ flat_map (fun p => match p with (x, _) => written b AsName x end) o
      ++ out_written (written b AsValue) out
  | VUnion _ x y => written b AsSql x ++ written b AsSql y
  | VInsert (MkIns _ _ t rows dup _ upd) =>
      flat_map (table_written (written b AsName) (written b AsSql)) t
      ++ rows_written (map (map (fun p => match p with
                                          | VValue (VStr c) x => (c, written b AsValue x)
                                          | _ => ([], [])
                                          end)) rows)
      ++ flat_map (written b AsSql) dup ++ flat_map (written b AsSql) upd
  | VUpdate (MkUpd _ t vs w _) =>
      flat_map (table_written (written b AsName) (written b AsSql)) t
      ++ flat_map (written b AsSql) vs ++ flat_map (written b AsSql) w
  | VDelete (MkDel _ t rf w _) =>
      flat_map (table_written (written b AsName) (written b AsSql)) t
      ++ flat_map (table_written (written b AsName) (written b AsSql)) rf
      ++ flat_map (written b AsSql) w
  | _ => []
  end.

(** ** The queries the property is about *)

Section All.
  Context {A : Type} (P : A -> Prop).
  Fixpoint All (l : list A) : Prop := match l with [] => True | x :: r => P x /\ All r end.
End All.

(** A name without the quote character, not empty and not only dots. *)
Definition good_name (q : chr) (n : str) : Prop := ~ In q n /\ name_segments n <> [].
(** Text that is code and nothing else: no quotes, no comments. *)
Definition code_char (c : chr) : Prop := ~ In c [39; 34; 96; 35; 45; 47] /\ ~ whitespace c.
Definition good_type (ty : option str) : Prop :=
  match ty with Some s => s <> [] /\ Forall code_char s | None => True end.
Definition pair_ok {A} (P Q : A -> Prop) (p : A * A) : Prop := match p with (a, b) => P a /\ Q b end.
Definition option_ok {A} (P : A -> Prop) (o : option A) : Prop := match o with Some x => P x | None => True end.
Definition join_ok (P Q R : val -> Prop) (j : join val) : Prop :=
  match j with MkJoin _ n a ons => P n /\ Q a /\ All R ons end.

(** Which joins of a table are kept apart whatever the string values are: at most one
    join; or joins of different tables or under different aliases; or joins without
    literals.  Otherwise two joins may be written as one, and whether they are depends
    on the values compared in their ON conditions (C45_joins_refuted). *)
Definition plain_name (v : val) : Prop := match v with VStr _ | VNone => True | _ => False end.
Definition apart (i j : join val) : Prop :=
  plain_name (j_name i) /\ plain_name (j_alias i) /\ plain_name (j_name j) /\ plain_name (j_alias j) /\
  (j_name i <> j_name j \/ j_alias i <> j_alias j).
Definition no_literal (b : backend) (j : join val) : Prop :=
  on_join (blank AsName) (blank AsSql) j = j /\ join_written (written b AsName) (written b AsSql) j = [].
Definition joins_kept (b : backend) (js : list (join val)) : Prop :=
  (List.length js <= 1)%nat \/ ForallOrdPairs apart js \/ Forall (no_literal b) js.

Definition alias_ok (P : val -> Prop) (a : val) : Prop := match a with VNone => True | _ => P a end.
Definition table_ok (b : backend) (name sql : val -> Prop) (t : table val) : Prop :=
  match t with MkTable n a js =>
    name n /\ alias_ok name a /\ All (join_ok name (alias_ok name) sql) js /\ joins_kept b js end.
Definition out_ok (P : val -> Prop) (o : outfile val) : Prop :=
  match o with MkOutfile f1 f2 f3 f4 => option_ok P f1 /\ option_ok P f2 /\ option_ok P f3 /\ option_ok P f4 end.
(** One column name, or a list of them. *)
Definition columns_ok (P : val -> Prop) (e : val) : Prop :=
  match e with
  | VSeq KList l | VSeq KTuple l => l <> [] /\ All P l
  | _ => P e
  end.

Fixpoint harmless (b : backend) (r : role) (v : val) {struct v} : Prop :=
  let q := quote_of b in
  match v with
  | VStr s => match r with AsName => good_name q s | AsValue => ~ reference_shaped q s | AsSql => False end
  | VInt _ => r <> AsSql
  | VNone | VBool _ | VFloat _ | VDec _ | VDate _ | VDatetime _ _ => r = AsValue
  | VBytes x => r = AsValue /\ Forall (fun c => c < 256) x
  | VSeq _ l => r = AsValue /\ l <> [] /\ All (harmless b AsValue) l
  | VSqlV x => harmless b AsValue x
  | VSqlR x => harmless b AsName x
  | VCond k c rk x => harmless b AsName c /\ harmless b (compared_as k x) x
  | VValue c x => harmless b AsName c /\ harmless b AsValue x
  | VConds ps | VNot ps => ps <> [] /\ All (harmless b AsSql) ps
  | VCoC _ x y => harmless b AsSql x /\ harmless b AsSql y
  | VExists x => harmless b AsSql x
  | VAgg _ _ e => columns_ok (harmless b AsName) e
  | VConvert e ty => good_type ty /\ columns_ok (harmless b AsName) e
  | VConcat cols => All (pair_ok (harmless b AsName) (alias_ok (harmless b AsName))) cols
  | VGroupConcat cols ords sep =>
      All (pair_ok (harmless b AsName) (alias_ok (harmless b AsName))) cols /\
      All (fun p => match p with (x, _) => harmless b AsName x end) ords /\
      (sep = VNone \/ sep = VStr [] \/ harmless b AsValue sep)
  | VSelect (MkSel _ c t w g h o _ out _) =>
      All (pair_ok (harmless b AsName) (alias_ok (harmless b AsName))) c /\ All (table_ok b (harmless b AsName) (harmless b AsSql)) t /\ All (harmless b AsSql) w /\
      All (fun p => match p with (x, _) => harmless b AsName x end) g /\ All (harmless b AsSql) h /\
      All (fun p => match p with (x, _) => harmless b AsName x end) o /\
      out_ok (harmless b AsValue) out
  | VUnion _ x y => harmless b AsSql x /\ harmless b AsSql y
  | VInsert (MkIns _ _ t rows dup cf upd) =>
      All (table_ok b (harmless b AsName) (harmless b AsSql)) t /\
      All (All (fun p => match p with
                         | VValue (VStr c) x => good_name q c /\ harmless b AsValue x
                         | _ => False
                         end)) rows /\
      All (harmless b AsSql) dup /\ All (harmless b AsSql) upd /\
      match cf with Some c => good_name q c | None => True end
  | VUpdate (MkUpd _ t vs w _) => All (table_ok b (harmless b AsName) (harmless b AsSql)) t /\ All (harmless b AsSql) vs /\ All (harmless b AsSql) w
  | VDelete (MkDel _ t rf w _) => All (table_ok b (harmless b AsName) (harmless b AsSql)) t /\ All (table_ok b (harmless b AsName) (harmless b AsSql)) rf /\ All (harmless b AsSql) w
  | VDict _ | VOther _ | VCustom _ | VRel _ _ => False
  end.

(** ** Reading the text *)
Definition literals (l : list token) : list str :=
  flat_map (fun k => match k with TStr s => [s] | _ => [] end) l.
(** The tokens with the contents of the literals left out. *)
Definition code (l : list token) : list token :=
  map (fun k => match k with TStr _ => TStr [] | _ => k end) l.
Definition settled (k : token) : Prop := match k with TComment | TOpen => False | _ => True end.
