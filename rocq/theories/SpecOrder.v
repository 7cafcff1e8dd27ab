(** Specification: order of SQL objects by their texts, and dictionaries with such keys. *)
From Coq Require Import Permutation Sorted.
From Verif Require Import Base Value SpecArgs.
Open Scope N_scope.

(** Strings, and the objects that are compared by their text: C, V, R, functions,
    exists(...), Not(...), x & y and x | y. *)
Definition compared_by_text (v : val) : Prop :=
  match v with
  | VStr _ | VCustom _ | VSqlV _ | VSqlR _ | VCoC _ _ _ | VNot _ | VExists _ | VAgg _ _ _ | VConcat _ | VGroupConcat _ _ _ | VConvert _ _ => True
  | _ => False
  end.
(** The text of a string is the string; [str_of] is Python's str() of objects. *)
Definition text_of (str_of : val -> res str) (v : val) (s : str) : Prop :=
  v = VStr s \/ (is_sql v = true /\ str_of v = Ok s).

(** A dictionary whose keys are strings or objects with different texts. *)
Definition text_keys (str_of : val -> res str) (items : list (val * val)) : Prop :=
  exists texts, Forall2 (text_of str_of) (map fst items) texts /\ NoDup texts.
(** The entries in the order of the texts of their keys. *)
Definition in_text_order (str_of : val -> res str) (items out : list (val * val)) : Prop :=
  Permutation items out /\ exists texts, Forall2 (text_of str_of) (map fst out) texts /\ StronglySorted before texts.
(** A key that is a text or a number. *)
Definition key_of (str_of : val -> res str) (v : val) (t : str + Z) : Prop :=
  match t with inl s => text_of str_of v s | inr z => v = VInt z end.
(** The tuples (key, value), ... *)
Definition tuples (items : list (val * val)) : list val := map (fun p => VSeq KTuple [fst p; snd p]) items.
