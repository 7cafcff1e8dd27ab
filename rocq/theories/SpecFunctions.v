(** Specification: the functions avg, count, max, min, sum, concat, group_concat, convert. *)
From Verif Require Import Base Value Render ParseArgs Build Queries SpecArgs SpecHistory SpecClauses.
Open Scope N_scope.

Definition function_word (k : aggk) : str :=
  lit (match k with FAvg => "AVG" | FCount => "COUNT" | FMax => "MAX" | FMin => "MIN" | FSum => "SUM" end)%string.
Definition in_brackets (f s : str) : str := f ++ lit "(" ++ s ++ lit ")".
Definition several (v : val) (l : list val) : Prop := v = VSeq KList l \/ v = VSeq KTuple l.
(** A list or tuple of names, or one name. *)
Inductive arguments_text (E : env) (e : val) (t : str) : Prop :=
| at_several : forall l, several e l -> separated (lit ", ") (name_text E) l t -> arguments_text E e t
| at_one : (forall l, ~ several e l) -> name_text E e t -> arguments_text E e t.
(** COUNT shows * when it is given nothing (or '*'). *)
Inductive aggregate_text (E : env) (k : aggk) (e : val) (t : str) : Prop :=
| ag_star : k = FCount -> truthy e = false \/ e = VStr (lit "*") -> t = lit "*" -> aggregate_text E k e t
| ag_arg : (k = FCount -> truthy e = true /\ e <> VStr (lit "*")) -> arguments_text E e t -> aggregate_text E k e t.
(** distinct(d1), distinct(d2), ...: the last call counts. *)
Definition distinct_wanted (ds : list val) : bool := truthy (List.last ds VNone).

(** The methods of group_concat(...). *)
Inductive gcop := GOrderBy (args : list val) | GSeparator (sep : val).
Definition gc_step (W : world) (f : val) (op : gcop) : val * outcome :=
  match op with GOrderBy args => gc_order_by W f args | GSeparator s => gc_separator f s end.
(** The same order_by calls on a select. *)
Definition as_select (H : list (world * gcop)) : list (world * selop) :=
  flat_map (fun p => match snd p with GOrderBy args => [(fst p, SOrderBy args [])] | GSeparator _ => [] end) H.
Definition separators (H : list (world * gcop)) : list val :=
  flat_map (fun p => match snd p with GSeparator s => [s] | GOrderBy _ => [] end) H.
Definition separator_words (E : env) (s : val) (l : list str) : Prop :=
  (truthy s = false /\ l = []) \/ (truthy s = true /\ exists t, value_text E s t /\ l = [lit "SEPARATOR " ++ t]).
(** convert(e).to(type).to(type)...: the last type, in capitals; None if there was none. *)
Definition type_shown (H : list (world * val)) : str :=
  List.last (flat_map (fun p => match w_str (fst p) (snd p) with Ok s => [supper (w_env (fst p)) s] | Err _ => [] end) H) (lit "None").
