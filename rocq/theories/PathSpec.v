(** Specifications for paths: lexical simplification of component lists,
    '/'-separated segments, ancestors. *)
From Verif Require Import Base Vfs VfsPath.
Local Open Scope N_scope.

(** Lexical simplification of absolute paths, one rewriting step. *)
Inductive simplify : list comp -> list comp -> Prop :=
| simp_dot a b : simplify (RootDir :: a ++ CurDir :: b) (RootDir :: a ++ b)          (* x/./y = x/y *)
| simp_up a s b : simplify (RootDir :: a ++ Normal s :: ParentDir :: b) (RootDir :: a ++ b)  (* x/s/../y = x/y *)
| simp_top b : simplify (RootDir :: ParentDir :: b) (RootDir :: b).                  (* /../y = /y *)
Inductive simplifies : list comp -> list comp -> Prop :=
| simps_refl p : simplifies p p
| simps_step p q r : simplify p q -> simplifies q r -> simplifies p r.

(** An absolute path: the root and then anything but the root. *)
Definition absolute (p : list comp) : Prop := exists r, p = RootDir :: r /\ ~ In RootDir r.
(** A clean path: the root and then names only. *)
Definition clean (p : list comp) : Prop := exists names, p = RootDir :: map Normal names.

(** Concatenating segments with '/'. *)
Fixpoint unsplit (l : list text) : text :=
  match l with
  | [] => []
  | [s] => s
  | s :: r => s ++ cSlash :: unsplit r
  end.
Definition no_slash (s : text) : Prop := ~ In cSlash s.

(** [k] leading "../" then something that does not start with one. *)
Fixpoint ups (k : nat) (rest : text) : text :=
  match k with O => rest | S k' => cDot :: cDot :: cSlash :: ups k' rest end.
Definition starts_up (s : text) : Prop := exists r, s = cDot :: cDot :: cSlash :: r.
(** [j] leading "./" *)
Fixpoint dots (j : nat) (rest : text) : text :=
  match j with O => rest | S j' => cDot :: cSlash :: dots j' rest end.
Definition starts_dot (s : text) : Prop := exists r, s = cDot :: cSlash :: r.

(** [a] is [p] or an ancestor directory of [p]. *)
Definition ancestor (a p : list text) : Prop := exists r, p = a ++ r.
