(** What a program prints, and the pieces in which it arrives. *)
From Verif Require Import Base Utf8 DoveOutput.

(** the pieces from the two pipes *)
Definition outs (ps : list piece) : list (list N) := flat_map (fun p => match p with OutPiece d => [d] | ErrPiece _ => [] end) ps.
Definition errs (ps : list piece) : list (list N) := flat_map (fun p => match p with OutPiece _ => [] | ErrPiece d => [d] end) ps.
(** a text consists of characters *)
Definition characters (t : text) : Prop := Forall (fun c => is_scalar c = true) t.
(** no character is cut *)
Definition whole (ds : list (list N)) : Prop := Forall (fun d => exists t, characters t /\ d = encode t) ds.
(** the program prints [out], and [err] to the other pipe *)
Definition prints (ps : list piece) (out err : text) : Prop :=
  characters out /\ characters err /\ concat (outs ps) = encode out /\ concat (errs ps) = encode err.
(** [mid] is [t] without the blanks around it *)
Definition trimmed (t mid : text) : Prop :=
  exists a b, t = a ++ mid ++ b /\ Forall (fun c => js_blank c = true) a /\ Forall (fun c => js_blank c = true) b /\
    forall x, (hd_error mid = Some x \/ hd_error (rev mid) = Some x) -> js_blank x = false.
