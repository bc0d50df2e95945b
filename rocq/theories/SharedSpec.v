(** Where a message stands among the tokens of a file. *)
From Verif Require Import Base Kinds LexSpec Sink SyntaxSpec ShapeSpec.
Local Open Scope N_scope.

(** [n] tokens of the file stand before the message, blanks and comments aside. *)
Definition stands_after (ws : list (kind * text)) (n : nat) (e : syntax_error) : Prop :=
  exists a b, ws = a ++ b /\ se_pos e = tlen (concat (map snd a)) /\ length (proper a) = n.

(** The messages of two files agree before token number [n]: they begin with the
    same messages in the same order, each between the same two tokens, and all
    other messages stand after [n] or more tokens. *)
Definition agree_before (ws ws' : list (kind * text)) (n : nat) (errs errs' : list syntax_error) : Prop :=
  exists early early' late late', errs = early ++ late /\ errs' = early' ++ late' /\
    Forall2 (fun e e' => se_msg e = se_msg e' /\ exists i, stands_after ws i e /\ stands_after ws' i e') early early' /\
    Forall (fun e => exists i, (n <= i)%nat /\ stands_after ws i e) late /\
    Forall (fun e => exists i, (n <= i)%nat /\ stands_after ws' i e) late'.
