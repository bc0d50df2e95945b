(** What two trees have in common if their dumps are the same. *)
From Verif Require Import Base Kinds Sink.
Local Open Scope N_scope.

(** [opening a t]: the text [t] begins with [a], and [a] is the shortest such
    beginning of 21 bytes and more. *)
Definition opening (a t : text) : Prop :=
  (exists b, t = a ++ b) /\ 21 <= tlen a /\ (forall b c, a = b ++ [c] -> tlen b < 21).

(** Equal up to what stands in tokens of 25 bytes and more behind their
    openings. *)
Inductive alike : green -> green -> Prop :=
| alike_node k cs ds : Forall2 alike cs ds -> alike (GNode k cs) (GNode k ds)
| alike_token k t : alike (GTok k t) (GTok k t)
| alike_long k t u a : 25 <= tlen t -> tlen t = tlen u -> opening a t -> opening a u -> alike (GTok k t) (GTok k u).
