(** Specification: regular expressions as the word given to has(). *)
From Verif Require Import Base Value Backend Eq Render ParseArgs Build Queries History SpecRef SpecArgs SpecHistory SpecClauses SpecHas.
Open Scope N_scope.

Inductive pattern :=
| Sym (c : chr)             (* this character *)
| AnySym                    (* any character but a newline *)
| WordSym | OtherSym        (* a letter, digit or underscore; any other character *)
| Begin | End               (* the start of the text; its end, or a newline there *)
| Nothing
| Then (p q : pattern)
| Or (p q : pattern)
| Many (p : pattern)        (* any number of times, also none *)
| Once (p : pattern)        (* at least once *)
| Maybe (p : pattern).

(** ** How it is written *)

Definition is_or (p : pattern) : bool := match p with Or _ _ => true | _ => false end.
Definition is_sym (p : pattern) : bool := match p with Sym _ | AnySym | WordSym | OtherSym => true | _ => false end.
Definition brackets (b : bool) (s : str) : str := if b then lit "(" ++ s ++ lit ")" else s.
Fixpoint written (p : pattern) : str :=
  match p with
  | Sym c => if existsb (N.eqb c) special then [92; c] else [c]
  | AnySym => lit "."
  | WordSym => lit "\w"
  | OtherSym => lit "\W"
  | Begin => lit "^"
  | End => lit "$"
  | Nothing => []
  | Then p q => brackets (is_or p) (written p) ++ brackets (is_or q) (written q)
  | Or p q => written p ++ lit "|" ++ brackets (is_or q) (written q)
  | Many p => brackets (negb (is_sym p)) (written p) ++ lit "*"
  | Once p => brackets (negb (is_sym p)) (written p) ++ lit "+"
  | Maybe p => brackets (negb (is_sym p)) (written p) ++ lit "?"
  end.
(** With brackets if it is an alternative. *)
Definition one_word (p : pattern) : str := brackets (is_or p) (written p).

(** ** What it means: [meets E p a m b] if [p] fits [m] in the text [a ++ m ++ b] *)

Inductive meets (E : env) : pattern -> str -> str -> str -> Prop :=
| me_sym : forall c a b, meets E (Sym c) a [c] b
| me_any : forall c a b, c <> 10 -> meets E AnySym a [c] b
| me_word : forall c a b, word_char E c -> meets E WordSym a [c] b
| me_other : forall c a b, ~ word_char E c -> meets E OtherSym a [c] b
| me_begin : forall b, meets E Begin [] [] b
| me_end : forall a b, b = [] \/ b = [10] -> meets E End a [] b
| me_nothing : forall a b, meets E Nothing a [] b
| me_then : forall p q a m n b, meets E p a m (n ++ b) -> meets E q (a ++ m) n b -> meets E (Then p q) a (m ++ n) b
| me_left : forall p q a m b, meets E p a m b -> meets E (Or p q) a m b
| me_right : forall p q a m b, meets E q a m b -> meets E (Or p q) a m b
| me_stop : forall p a b, meets E (Many p) a [] b
| me_more : forall p a m n b, meets E p a m (n ++ b) -> meets E (Many p) (a ++ m) n b -> meets E (Many p) a (m ++ n) b
| me_once : forall p a m n b, meets E p a m (n ++ b) -> meets E (Many p) (a ++ m) n b -> meets E (Once p) a (m ++ n) b
| me_skip : forall p a b, meets E (Maybe p) a [] b
| me_take : forall p a m b, meets E p a m b -> meets E (Maybe p) a m b.

(** Something the pattern fits is in the text, and is not part of a longer word. *)
Definition starts_word (E : env) (a : str) : Prop := forall x c, a = x ++ [c] -> ~ word_char E c.
Definition ends_word (E : env) (b : str) : Prop := forall c x, b = c :: x -> ~ word_char E c.
Definition found (E : env) (p : pattern) (s : str) : Prop :=
  exists a m b, s = a ++ m ++ b /\ starts_word E a /\ meets E p a m b /\ ends_word E b.
(** The same, but it may go on as, or be the end of, a longer word. *)
Definition found_start (E : env) (p : pattern) (s : str) : Prop :=
  exists a m b, s = a ++ m ++ b /\ starts_word E a /\ meets E p a m b.
Definition found_end (E : env) (p : pattern) (s : str) : Prop :=
  exists a m b, s = a ++ m ++ b /\ meets E p a m b /\ ends_word E b.

(** [has_asked E n l v r]: statement.has(n, v) on a part with the text [l] ([] if it is not
    set) has the outcome [r].  The select is built by any calls. *)
Inductive has_asked (E : env) : str -> list str -> val -> res bool -> Prop :=
| ha_select : forall H n l v, select_part E (map snd H) (calls sel_step empty_select H) n l ->
    has_asked E n l v (sel_has (pure_world E) (calls sel_step empty_select H) n v)
| ha_update : forall q n l v, update_part E q n l -> has_asked E n l v (upd_has (pure_world E) q n v)
| ha_delete : forall q n l v, delete_part E q n l -> has_asked E n l v (del_has (pure_world E) q n v)
| ha_insert : forall q n l v, insert_part E q n l -> has_asked E n l v (ins_has (pure_world E) q n v).
