(** Where a construct stands in a syntax tree. *)
From Verif Require Import Base Kinds TreeSpec.

(** [sits n u f]: [u] is one of the trees [f] or stands anywhere inside one of
    them, and [n] tokens stand before it. *)
Inductive sits : nat -> tree -> list tree -> Prop :=
| sits_here u f : sits 0 u (u :: f)
| sits_inside n u k c f : sits n u c -> sits n u (TNode k c :: f)
| sits_after n u v f : sits n u f -> sits (length (leaves v) + n) u (v :: f).
