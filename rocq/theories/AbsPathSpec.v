(** What file-system paths mean (Unix), in terms of the parts between slashes. *)
From Coq Require Import String.
From Verif Require Import Base Utf8 VfsPath PathSpec.
Local Open Scope N_scope.

(** The path [p] consists of [parts] with slashes in between. *)
Definition parts_of (p : bytes) (parts : list bytes) : Prop :=
  parts <> [] /\ Forall no_slash parts /\ p = unsplit parts.

(** Parts that lead nowhere: [//] and [/./]. *)
Definition idle (s : bytes) : bool := match s with [] => true | [c] => c =? 46 | _ => false end.
(** Names of files and directories. *)
Definition name (s : bytes) : Prop := idle s = false /\ s <> `".." /\ no_slash s.

(** [walk d parts e]: from the directory reached from the root by the names
    [d], following [parts] leads to [e].  The root is its own parent. *)
Inductive walk : list bytes -> list bytes -> list bytes -> Prop :=
| walk_end d : walk d [] d
| walk_stay d s r e : idle s = true -> walk d r e -> walk d (s :: r) e
| walk_up d r e : walk (removelast d) r e -> walk d (`".." :: r) e
| walk_down d s r e : name s -> walk (d ++ [s]) r e -> walk d (s :: r) e.

(** [leads d p e]: the path [p], read in the directory [d], means [e]. *)
Inductive leads (d : list bytes) : bytes -> list bytes -> Prop :=
| leads_absolute p parts e : parts_of p parts -> walk [] parts e -> leads d (cSlash :: p) e
| leads_relative p parts e : (forall r, p <> cSlash :: r) -> parts_of p parts -> walk d parts e -> leads d p e.

(** An absolute path. *)
Definition rooted (p : bytes) : Prop := exists r, p = cSlash :: r.
(** The shortest way to write the file reached from the root by the names [ns]. *)
Definition spelling (ns : list bytes) : bytes := cSlash :: unsplit ns.

(** The parts of a path that count, without resolving "..". *)
Definition words (p : bytes) (ws : list bytes) : Prop :=
  exists parts, parts_of p parts /\ ws = filter (fun s => negb (idle s)) parts.
