(** What it means that a generated file is up to date. *)
From Verif Require Import Base.
Local Open Scope N_scope.

(** A line without the "\r" at its end, if it has one. *)
Definition bare (l l' : text) : Prop := l = l' ++ [cCR] \/ (l = l' /\ ~ exists x, l = x ++ [cCR]).

(** The same lines; how a line is ended, by "\n" or by "\r\n", is left open. *)
Inductive same_lines : text -> text -> Prop :=
| same_end l : ~ In cLF l -> same_lines l l
| same_line l1 l2 l r1 r2 : ~ In cLF l1 -> ~ In cLF l2 -> bare l1 l -> bare l2 l -> same_lines r1 r2 ->
    same_lines (l1 ++ cLF :: r1) (l2 ++ cLF :: r2).

(** [disk] says for each path what text is found there. *)
Definition up_to_date (disk : text -> option text) (job : text * text) : Prop :=
  exists old, disk (fst job) = Some old /\ same_lines old (snd job).

(** [k] of the files are not up to date. *)
Inductive stale (disk : text -> option text) : list (text * text) -> nat -> Prop :=
| stale_none : stale disk [] 0
| stale_fine j js k : up_to_date disk j -> stale disk js k -> stale disk (j :: js) k
| stale_one j js k : ~ up_to_date disk j -> stale disk js k -> stale disk (j :: js) (S k).
