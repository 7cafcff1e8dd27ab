(** What str() does to Python objects: Table._minimize_joins (tables.py:143-167), the
    only method of all __str__ methods that writes, on the objects of Heap.v.

    Simplification: str() of a query is not modelled as one function on the objects.
    It is a sequence of these steps, one for each table that is reached (Table.__str__,
    tables.py:80-81), on the tables of the query and of the queries inside. *)
From Verif Require Import Base NumFmt Value Backend Eq Render ParseArgs Build Queries Heap HeapBuild.
Open Scope string_scope.
Open Scope list_scope.
Open Scope nat_scope.

Definition see_join (h : heap) (r : ref) : res (join val) := d_join h (view h) r.
(** join_group[0]['table'] == join['table'] and join_group[0]['ons'] == join['ons']: 152. *)
Definition h_same_join (W : world) (h : heap) (a b : ref) : res bool :=
  do x <- see_join h a; do y <- see_join h b; same_join (w_str W) x y.
(** 148-157. *)
Definition rgroup := (ref * list ref)%type.
Fixpoint r_group_add (W : world) (h : heap) (j : ref) (gs : list rgroup) : res (list rgroup) :=
  match gs with
  | [] => Ok [(j, [])]
  | (d, t) :: rest =>
      match h_same_join W h d j with
      | Ok true => Ok ((d, t ++ [j]) :: rest)
      | Ok false => match r_group_add W h j rest with
                    | Ok rest' => Ok ((d, t) :: rest')
                    | Err e => Err e
                    end
      | Err e => Err e
      end
  end.
Fixpoint r_group_joins (W : world) (h : heap) (js : list ref) (gs : list rgroup) : res (list rgroup) :=
  match js with
  | [] => Ok gs
  | j :: rest => match r_group_add W h j gs with
                 | Ok gs' => r_group_joins W h rest gs'
                 | Err e => Err e
                 end
  end.
(** join['type']. *)
Definition h_type (h : heap) (d : ref) : res jointy := do t <- lookup h "type" d; d_jointy t.
(** 160-167; [l] is the new self._joins. *)
Definition h_settle_group (l : ref) (g : rgroup) : hm unit :=
  let (d, t) := g in
  doh tys <- look (fun h => mapM (h_type h) (d :: t));
  if negb (is_nilb t) && existsb (fun x => jointy_eqb x JInner) tys
  then doh _ <- store d "type" (jointy_ref JInner); push l d
  else if negb (is_nilb t) && forallb (fun x => jointy_eqb x (hd JInner tys)) tys
  then push l d
  else for_each (push l) (d :: t).
(** Table._minimize_joins: 143-167, and the condition it is called under: 80-81. *)
Definition h_minimize (W : world) (t : ref) : hm unit :=
  doh js <- look (fun h => do j <- attr h "_joins" t; do l <- refs_at h OList j; Ok (items_of l));
  match js with
  | [] => hret tt
  | _ =>
      doh gs <- look (fun h => r_group_joins W h js []);
      doh l <- alloc OList [];
      doh _ <- assign t "_joins" (RPtr l);
      for_each (h_settle_group (RPtr l)) gs
  end.
(** str() of the table at position [n] of the part [self]. *)
Definition h_show (W : world) (n : nat) (self : ref) : hm unit :=
  doh l <- look (fun h => parts_of h self);
  match nth_error l n with Some t => h_minimize W t | None => hret tt end.
