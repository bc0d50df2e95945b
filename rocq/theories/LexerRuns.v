(** Executions of the lexer of Lexer.v, for the statements of PropLexer.v *)
From Verif Require Import Base Kinds Lexer.

(** the states of a lexer over [t]: created, then advanced any number of times *)
Inductive reached (t : text) : lexer -> Prop :=
| reached_new lx : lexer_new t = Ok lx -> reached t lx
| reached_bump lx lx' : reached t lx -> lx_bump lx = Ok lx' -> reached t lx'.

(** [n] advances *)
Fixpoint bumps (n : nat) (lx : lexer) : res lexer :=
  match n with O => Ok lx | S n' => let! lx' := lx_bump lx in bumps n' lx' end.
