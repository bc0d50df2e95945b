(** Small specification of editor positions, independent of the index. *)
From Verif Require Import Base.
Local Open Scope N_scope.

(** Number of '\n' characters in a text. *)
Fixpoint count_lf (t : text) : N :=
  match t with [] => 0 | c :: r => (if c =? cLF then 1 else 0) + count_lf r end.

(** The part of a text after its last '\n' (all of it if there is none). *)
Fixpoint last_line (t : text) : text :=
  match t with
  | [] => []
  | c :: r => if count_lf t =? 0 then t else last_line r
  end.

(** The lines of a text, without their terminators; never empty. *)
Fixpoint lines_of (t : text) : list text :=
  match t with
  | [] => [[]]
  | c :: r =>
      if c =? cLF then [] :: lines_of r
      else match lines_of r with
           | l :: ls => (c :: l) :: ls
           | [] => [[c]]
           end
  end.

(** [x] is the byte offset of the start of a line other than the first. *)
Definition line_start_at (t : text) (x : N) : Prop :=
  exists before after, t = before ++ cLF :: after /\ x = tlen (before ++ [cLF]).

(** Non-empty consecutive ranges from [s] to [e]. *)
Fixpoint tiles (s : N) (rs : list (N * N)) (e : N) : Prop :=
  match rs with
  | [] => s = e
  | (a, b) :: r => a = s /\ a < b /\ tiles b r e
  end.
