(** Vocabulary for the properties about objects that are shared: what programs that
    use the library can do, and calls of methods with references to objects. *)
From Verif Require Import Base NumFmt Value Backend Eq Render ParseArgs Build Queries Heap SpecHeap HeapBuild HeapShow.
Open Scope nat_scope.

(** The object at [r] stands for the value [v]. *)
Definition stands (h : heap) (r : ref) (v : val) : Prop := exists n, decode h n r = Ok v.
(** The same for an argument given by name. *)
Definition kw_stands (h : heap) (a : str * ref) (b : str * val) : Prop := fst a = fst b /\ stands h (snd a) (snd b).
Definition args_stand (h : heap) (args : list ref) (kwds : rkwargs) (vs : list val) (vk : kwargs) : Prop :=
  Forall2 (stands h) args vs /\ Forall2 (kw_stands h) kwds vk.

(** ** Calls of public methods, with objects as arguments and with values as arguments

    [HShow k refs n]: in the course of printing something, table [n] of the query is
    printed (of a delete with [refs]: of the tables after FROM).  str() of a query is such
    a step for each of its tables, and for the tables of the queries inside. *)
Inductive qkind := QSelect | QInsert | QUpdate | QDelete.
Inductive hcall := HSel (op : hselop) | HIns (op : hinsop) | HUpd (op : hupdop) | HDel (op : hdelop) | HShow (k : qkind) (refs : bool) (n : nat).
Inductive vcall := VSel (op : selop) | VIns (op : insop) | VUpd (op : updop) | VDel (op : delop) | VShow (refs : bool) (n : nat).

Definition sel_stands (h : heap) (c : hselop) (d : selop) : Prop :=
  match c, d with
  | HSColumns a k, SColumns va vk | HSFrom a k, SFrom va vk | HSOn a k, SOn va vk | HSWhere a k, SWhere va vk
  | HSHaving a k, SHaving va vk | HSGroupBy a k, SGroupBy va vk | HSOrderBy a k, SOrderBy va vk => args_stand h a k va vk
  | HSFromTable t a, SFromTable vt va | HSLimit t a, SLimit vt va => stands h t vt /\ stands h a va
  | HSJoin ty a, SJoin ty' va => ty = ty' /\ stands h a va
  | HSOffset a, SOffset va => stands h a va
  | HSOut f a, SOut f' va => f = f' /\ stands h a va
  | HSOpt o a, SOpt o' va => o = o' /\ stands h a va
  | HSForUpdate a, SForUpdate va => stands h a va
  | _, _ => False
  end.
Definition ins_stands (h : heap) (c : hinsop) (d : insop) : Prop :=
  match c, d with
  | HIInto t, IInto vt => stands h t vt
  | HIValues a k, IValues va vk | HIOnDup a k, IOnDup va vk => args_stand h a k va vk
  | HIIgnore a, IIgnore va => stands h a va
  | _, _ => False
  end.
Definition upd_stands (h : heap) (c : hupdop) (d : updop) : Prop :=
  match c, d with
  | HUTable t, UTable vt => stands h t vt
  | HUSet a k, USet va vk | HUWhere a k, UWhere va vk | HUOn a k, UOn va vk => args_stand h a k va vk
  | HUJoin ty a, UJoin ty' va => ty = ty' /\ stands h a va
  | HUAllow, UAllow | HUForbid, UForbid => True
  | HUIgnore a, UIgnore va => stands h a va
  | _, _ => False
  end.
Definition del_stands (h : heap) (c : hdelop) (d : delop) : Prop :=
  match c, d with
  | HDDelete a, DDelete va => Forall2 (stands h) a va
  | HDFrom a k, DFrom va vk | HDWhere a k, DWhere va vk | HDOn a k, DOn va vk => args_stand h a k va vk
  | HDFromTable t a, DFromTable vt va => stands h t vt /\ stands h a va
  | HDJoin ty a, DJoin ty' va => ty = ty' /\ stands h a va
  | HDAllow, DAllow | HDForbid, DForbid => True
  | HDIgnore a, DIgnore va => stands h a va
  | _, _ => False
  end.
(** The same method, and the objects stand for the values. *)
Definition call_stands (h : heap) (c : hcall) (d : vcall) : Prop :=
  match c, d with
  | HSel c, VSel d => sel_stands h c d
  | HIns c, VIns d => ins_stands h c d
  | HUpd c, VUpd d => upd_stands h c d
  | HDel c, VDel d => del_stands h c d
  | HShow _ f n, VShow f' n' => f = f' /\ n = n'
  | _, _ => False
  end.

(** What a call is given. *)
Definition sel_refs (c : hselop) : list ref :=
  match c with
  | HSColumns a k | HSFrom a k | HSOn a k | HSWhere a k | HSHaving a k | HSGroupBy a k | HSOrderBy a k => a ++ map snd k
  | HSFromTable t a | HSLimit t a => [t; a]
  | HSJoin _ a | HSOffset a | HSOut _ a | HSOpt _ a | HSForUpdate a => [a]
  end.
Definition ins_refs (c : hinsop) : list ref :=
  match c with HIInto t | HIIgnore t => [t] | HIValues a k | HIOnDup a k => a ++ map snd k end.
Definition upd_refs (c : hupdop) : list ref :=
  match c with
  | HUTable t | HUIgnore t => [t] | HUSet a k | HUWhere a k | HUOn a k => a ++ map snd k
  | HUJoin _ a => [a] | HUAllow | HUForbid => []
  end.
Definition del_refs (c : hdelop) : list ref :=
  match c with
  | HDDelete a => a | HDFrom a k | HDWhere a k | HDOn a k => a ++ map snd k
  | HDFromTable t a => [t; a] | HDJoin _ a => [a] | HDAllow | HDForbid => [] | HDIgnore a => [a]
  end.
Definition call_refs (c : hcall) : list ref :=
  match c with HSel c => sel_refs c | HIns c => ins_refs c | HUpd c => upd_refs c | HDel c => del_refs c | HShow _ _ _ => [] end.
Definition join_given (c : hcall) : option ref :=
  match c with HSel (HSJoin _ a) | HUpd (HUJoin _ a) | HDel (HDJoin _ a) => Some a | _ => None end.

(** The call on the objects, and on values. *)
Definition call (W : world) (q : addr) (c : hcall) : hm unit :=
  match c with
  | HSel c => h_sel_call W q c | HIns c => h_ins_call W q c | HUpd c => h_upd_call W q c | HDel c => h_del_call W q c
  | HShow k f n => at_part (match k with QDelete => if f then "_references" else "_tables" | _ => "_tables" end) q (h_show W n)
  end.
(** Printing a table replaces its joins by fewer joins that mean the same. *)
Definition shown_table (W : world) (t : table val) : table val * outcome :=
  match minimize (w_str W) (tb_joins t) with
  | Ok js => (MkTable (tb_name t) (tb_alias t) js, Ok tt)
  | Err e => (t, Err e)
  end.
Fixpoint shown_tables (W : world) (n : nat) (ts : list (table val)) : list (table val) * outcome :=
  match ts, n with
  | [], _ => ([], Ok tt)
  | t :: ts, 0 => (fst (shown_table W t) :: ts, snd (shown_table W t))
  | t :: ts, S n => (t :: fst (shown_tables W n ts), snd (shown_tables W n ts))
  end.
Definition shown (W : world) (v : val) (refs : bool) (n : nat) : val * outcome :=
  match v with
  | VSelect q => lift1 (fun x => VSelect (with_tabs q x)) (shown_tables W n (s_tabs q))
  | VInsert (MkIns rp ig tabs rows dup cf up) => lift1 (fun x => VInsert (MkIns rp ig x rows dup cf up)) (shown_tables W n tabs)
  | VUpdate (MkUpd ig tabs vals wh al) => lift1 (fun x => VUpdate (MkUpd ig x vals wh al)) (shown_tables W n tabs)
  | VDelete (MkDel ig tabs rf wh al) =>
      if refs then lift1 (fun x => VDelete (MkDel ig tabs x wh al)) (shown_tables W n rf)
      else lift1 (fun x => VDelete (MkDel ig x rf wh al)) (shown_tables W n tabs)
  | _ => (v, Ok tt)
  end.
Definition with_obj {Q} (f : Q -> val) (x : Q * outcome) : val * outcome := (f (fst x), snd x).
Definition called (W : world) (v : val) (d : vcall) : val * outcome :=
  match v, d with
  | VSelect q, VSel d => with_obj VSelect (sel_step W q d)
  | VInsert q, VIns d => with_obj VInsert (ins_step W q d)
  | VUpdate q, VUpd d => with_obj VUpdate (upd_step W q d)
  | VDelete q, VDel d => with_obj VDelete (del_step W q d)
  | _, VShow f n => shown W v f n
  | _, _ => (v, Ok tt)
  end.

Definition of_kind (c : hcall) : qkind :=
  match c with HSel _ => QSelect | HIns _ => QInsert | HUpd _ => QUpdate | HDel _ => QDelete | HShow k _ _ => k end.
(** Select(), Insert(), Update(), Delete(). *)
Definition new_of (k : qkind) : hm addr :=
  match k with QSelect => new_select | QInsert => new_insert | QUpdate => new_update | QDelete => new_delete end.
Definition empty_of (k : qkind) : val :=
  match k with
  | QSelect => VSelect empty_select | QInsert => VInsert empty_insert | QUpdate => VUpdate empty_update | QDelete => VDelete empty_delete
  end.

(** ** Programs

    The states a program that uses the library can get into: the objects, the
    references the program has, and the queries it has created.  A program creates
    objects (lists, dictionaries, conditions, generators, ...) from references it has,
    changes objects of its own, creates queries, copies queries and other objects
    (copy() is copy.deepcopy, see SpecHeap.well_formed), calls methods of queries and
    prints them.
    The objects inside a query are not handed out by the library.  A copy of something
    with queries inside has copies of them inside, which are queries too: they are
    printed with the copy.  (The rules let the program have them, which the library
    does not: so more programs are allowed than there are.) *)
(** The same path leads from [p] to the first and from [p'] to the second. *)
Inductive twin (h : heap) (p : addr) (h' : heap) (p' : addr) : ref -> ref -> Prop :=
| tw_start : twin h p h' p' (RPtr p) (RPtr p')
| tw_entry : forall x x' k l k' l' i a r a' r', twin h p h' p' (RPtr x) (RPtr x') -> get h x = Some (MkObj k l) -> get h' x' = Some (MkObj k' l') ->
    nth_error l i = Some (a, r) -> nth_error l' i = Some (a', r') -> twin h p h' p' r r'.
Definition copied_inside (h : heap) (qs : list (addr * qkind)) (p : addr) (h' : heap) (p' : addr) (x : addr * qkind) : Prop :=
  exists y, In (y, snd x) qs /\ twin h p h' p' (RPtr y) (RPtr (fst x)).
Definition given (H : list ref) (r : ref) : Prop := (exists a, r = RAtom a) \/ In r H.
Inductive reached : heap -> list ref -> list (addr * qkind) -> Prop :=
| at_start : reached [] [] []
| makes : forall h H qs k l, reached h H qs -> (forall a r, In (a, r) l -> given H r) ->
    reached (h ++ [MkObj k l]) (RPtr (List.length h) :: H) qs
| edits : forall h H qs p k l l', reached h H qs -> In (RPtr p) H -> (forall t, ~ In (p, t) qs) -> get h p = Some (MkObj k l) ->
    (forall a r, In (a, r) l' -> given H r) -> reached (put h p (MkObj k l')) H qs
| creates : forall h H qs t h' q, reached h H qs -> new_of t h = (h', Ok q) -> reached h' (RPtr q :: H) ((q, t) :: qs)
| copies : forall h H qs q k h' q' more, reached h H qs -> In (q, k) qs -> well_formed h -> deepcopy h q = Ok (h', q') ->
    Forall (copied_inside h qs q h' q') more -> reached h' (RPtr q' :: map (fun x => RPtr (fst x)) more ++ H) ((q', k) :: more ++ qs)
| copies_object : forall h H qs p h' p' more, reached h H qs -> In (RPtr p) H -> well_formed h -> deepcopy h p = Ok (h', p') ->
    Forall (copied_inside h qs p h' p') more -> reached h' (RPtr p' :: map (fun x => RPtr (fst x)) more ++ H) (more ++ qs)
| calls : forall h H qs W q c h' o, reached h H qs -> In (q, of_kind c) qs -> Forall (given H) (call_refs c) ->
    call W q c h = (h', o) -> reached h' H qs.

(** No generator is inside what the call is given. *)
Definition plain (h : heap) (c : hcall) : Prop :=
  forall r p, In r (call_refs c) -> reach h r (RPtr p) -> kind_of h p <> Some OGen.
(** The query is not inside what the call is given. *)
Definition apart (h : heap) (q : addr) (c : hcall) : Prop := forall r, In r (call_refs c) -> ~ reach h r (RPtr q).
(** The query is not inside itself. *)
Definition unlooped (h : heap) (q : addr) : Prop :=
  forall p, p <> q -> reach h (RPtr q) (RPtr p) -> ~ reach h (RPtr p) (RPtr q).
(** Given to join, a dictionary with one entry loses it. *)
Definition loses (h : heap) (c : hcall) (d : addr) : Prop :=
  join_given c = Some (RPtr d) /\ exists l x, get h d = Some (MkObj ODict l) /\ pairs_of l = [x].
(** Such a dictionary is neither inside the query nor inside its own entries. *)
Definition loose (h : heap) (q : addr) (c : hcall) : Prop :=
  forall d, loses h c d -> ~ reach h (RPtr q) (RPtr d) /\ forall r, refers h d r -> ~ reach h r (RPtr d).
(** What a call may use up: generators inside what it is given, and the dictionary given to join. *)
Definition used_up (h : heap) (c : hcall) (p : addr) : Prop :=
  (kind_of h p = Some OGen /\ exists r, In r (call_refs c) /\ reach h r (RPtr p)) \/ loses h c p.

(** A chain of calls: an exception ends it. *)
Fixpoint chain (W : world) (q : addr) (cs : list hcall) : hm unit :=
  match cs with [] => hret tt | c :: cs => doh _ <- call W q c; chain W q cs end.
Fixpoint chained (W : world) (v : val) (ds : list vcall) : val * outcome :=
  match ds with
  | [] => (v, Ok tt)
  | d :: ds => match called W v d with (v', Ok _) => chained W v' ds | (v', Err e) => (v', Err e) end
  end.
