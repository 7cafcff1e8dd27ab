(** /repo/sqlpuzzle/_backends. *)
From Verif Require Import Base NumFmt Value Regex.
Open Scope N_scope.

(** reference_quote: sql.py:10, mysql.py:9. *)
Definition ref_quote (b : backend) : chr := match b with BMySql => c_bt | _ => c_dq end.
(** sql.py:11-14, mysql.py:10, postgresql.py:11-12, sqlite.py:9. *)
Definition supports_full_join (b : backend) : bool := match b with BPostgres => true | _ => false end.
Definition supports_on_duplicate_key_update (b : backend) : bool := match b with BMySql => true | _ => false end.
Definition supports_on_conflict_do_update (b : backend) : bool := match b with BPostgres => true | _ => false end.
Definition supports_replace_into (b : backend) : bool := match b with BSqlite => true | _ => false end.

(** boolean: sql.py:16-18, postgresql.py:14-16. *)
Definition be_boolean (b : backend) (v : bool) : str :=
  match b with
  | BPostgres => if v then lit "true" else lit "false"
  | _ => z_dec (if v then 1 else 0)%Z
  end.

(** bytes: sql.py:46-48, postgresql.py:18-20. *)
Definition be_bytes (b : backend) (v : list N) : str :=
  match b with
  | BPostgres => [69; c_sq; c_bs; c_bs; 120] ++ hexlify v ++ [c_sq]
  | _ => [120; c_sq] ++ hexlify v ++ [c_sq]
  end.

(** The regular expression of is_reference, sql.py:25-28, for quote [q]:
    ^((q([^q]|(qq))+q))(\.((q([^q]|(qq))+q)|[^q. ]+)){0,2}$ *)
Definition rx_quoted (q : chr) : regex :=
  RxCat (rx_char q)
    (RxCat (rx_plus (RxAlt (rx_not [q]) (RxCat (rx_char q) (rx_char q)))) (rx_char q)).
Definition rx_reference (q : chr) : regex :=
  RxCat (rx_quoted q)
    (rx_opt2 (RxCat (rx_char c_dot)
                (RxAlt (rx_quoted q) (rx_plus (rx_not [q; c_dot; c_sp]))))).

(** is_reference: sql.py:20-28 (on a str). *)
Definition is_reference (b : backend) (s : str) : bool :=
  rx_match (rx_reference (ref_quote b)) (strip s).

(** The text of a q-quoted chunk starting right after the opening quote:
    matches [^q]+q at the head of [s].  sql.py:42. *)
Fixpoint span_not (q : chr) (s : str) : str * str :=
  match s with
  | [] => ([], [])
  | c :: r => if c =? q then ([], s) else let (a, b) := span_not q r in (c :: a, b)
  end.
Definition quoted_chunk (q : chr) (s : str) : option str :=
  match span_not q s with
  | (c :: a, _ :: _) => Some (c :: a)
  | _ => None
  end.

(** re.split(r'q([^q]+)q|\.', s), the None groups left out.  sql.py:42.
    [acc]: text since the last match, reversed; [skip]: characters already
    consumed by the match in progress. *)
Fixpoint split_ref (q : chr) (s : str) (acc : str) (skip : nat) : list str :=
  match s with
  | [] => [rev acc]
  | c :: r =>
      match skip with
      | S k => split_ref q r acc k
      | O =>
          if c =? q then
            match quoted_chunk q r with
            | Some x => rev acc :: x :: split_ref q r [] (S (List.length x))
            | None => split_ref q r (c :: acc) O
            end
          else if c =? c_dot then rev acc :: split_ref q r [] O
          else split_ref q r (c :: acc) O
      end
  end.

(** One part of the result.  sql.py:43. *)
Definition quote_part (q : chr) (i : str) : str :=
  if seqb i [c_star] then i else q :: i ++ [q].

(** reference: sql.py:30-44. *)
Definition reference (b : backend) (s : str) : str :=
  let q := ref_quote b in
  sjoin [c_dot] (map (quote_part q) (filter (fun i => negb (is_nilb i)) (split_ref q s [] O))).

(** set_backend: __init__.py:19-28.  Result: the backend afterwards. *)
Definition backend_of_name (s : str) : option backend :=
  if seqb s (lit "sql") then Some BSql
  else if seqb s (lit "mysql") then Some BMySql
  else if seqb s (lit "postgresql") then Some BPostgres
  else if seqb s (lit "sqlite") then Some BSqlite
  else None.
(** [E] supplies only [lower]; a non-str argument has no lower (AttributeError). *)
Definition set_backend (E : env) (cur : backend) (database : val) : backend * res unit :=
  match database with
  | VStr s =>
      match backend_of_name (slower E s) with
      | Some b => (b, Ok tt)
      | None => (cur, Err EException)
      end
  | VBytes _ => (cur, Err EException)     (* bytes has lower(); never a key *)
  | _ => (cur, Err EAttributeError)
  end.
