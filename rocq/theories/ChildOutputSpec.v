(** Specification for C58, independent of the model's helpers. *)
From Verif Require Import Base.
Local Open Scope N_scope.

(** One carriage return at the end of a line does not belong to it. *)
Inductive without_cr : text -> text -> Prop :=
| WCr l : without_cr (l ++ [13]) l
| WNone l : (forall l', l <> l' ++ [13]) -> without_cr l l.
(** The lines of a text: ended by line feeds, except perhaps the last. *)
Inductive lines_of : text -> list text -> Prop :=
| LEmpty : lines_of [] []
| LLast l l' : l <> [] -> ~ In 10 l -> without_cr l l' -> lines_of l [l']
| LLine l l' t ls : ~ In 10 l -> without_cr l l' -> lines_of t ls -> lines_of (l ++ 10 :: t) (l' :: ls).

(** Bytes up to a line boundary *)
Definition at_boundary (whole : list N) : Prop := whole = [] \/ exists a, whole = a ++ [10].
(** The calls of one of the two callbacks *)
Definition calls_of (is_out : bool) (calls : list (bool * text)) : list text :=
  map snd (filter (fun c => Bool.eqb (fst c) is_out) calls).
