(** Specification of source-root assignment. *)
From Verif Require Import Base Utf8 Vfs VfsPath.
Local Open Scope N_scope.

Definition is_prefix (a b : list N) : Prop := exists r, b = a ++ r.

(** [root] is one of the paths configured for set number [i]. *)
Definition configured (roots : list (list vpath)) (i : nat) (root : vpath) : Prop :=
  exists ps, nth_error roots i = Some ps /\ In root ps.

(** Set [i] owns path [p]: it has the longest configured root that is a prefix
    of [p] (lowest set number among ties), or no root is and [i] is the
    default set. *)
Definition owns (roots : list (list vpath)) (i : nat) (p : vpath) : Prop :=
  (exists root, configured roots i root /\ is_prefix (vpath_encode root) (vpath_encode p) /\
     forall j root', configured roots j root' -> is_prefix (vpath_encode root') (vpath_encode p) ->
       (length (vpath_encode root') < length (vpath_encode root))%nat \/
       (length (vpath_encode root') = length (vpath_encode root) /\ (i <= j)%nat))
  \/ (i = length roots /\
      forall j root', configured roots j root' -> ~ is_prefix (vpath_encode root') (vpath_encode p)).

(** ** The same in terms of the paths as they are written *)
(** kind of the path (on disk or virtual) and its text *)
Definition on_disk (p : vpath) : bool := match p with Real _ => true | Virtual _ => false end.
Fixpoint slashed (cs : list text) : text := match cs with [] => [] | c :: r => 47 :: c ++ slashed r end.
Definition written (p : vpath) : text :=
  match p with
  | Real [] => [47]
  | Real cs => slashed cs
  | Virtual s => s
  end.
(** [root] is of the same kind as [p] and its text starts the text of [p] *)
Definition above (root p : vpath) : Prop := on_disk root = on_disk p /\ is_prefix (written root) (written p).
(** Set [i] lists the longest root above [p], and is the first to list it; or
    no root is above [p] and [i] is the default set. *)
Definition nearest (roots : list (list vpath)) (i : nat) (p : vpath) : Prop :=
  (exists root, configured roots i root /\ above root p /\
     forall j root', configured roots j root' -> above root' p ->
       (length (written root') < length (written root))%nat \/ root' = root /\ (i <= j)%nat)
  \/ (i = length roots /\ forall j root', configured roots j root' -> ~ above root' p).
(** what Rust strings hold: no surrogates, nothing above U+10FFFF *)
Definition proper_path (p : vpath) : Prop :=
  forallb is_scalar (written p) = true /\ match p with Real cs => Forall (fun c => c <> [] /\ ~ In 47 c) cs | Virtual _ => True end.

(** ** The directory reading *)
(** [root] encloses [p]: a directory above it (or the path itself), by
    components; for virtual paths, by text *)
Definition encloses (root p : vpath) : Prop :=
  match root, p with
  | Real b, Real a => exists more, a = b ++ more
  | Virtual b, Virtual a => exists more, a = b ++ more
  | _, _ => False
  end.
Definition depth (p : vpath) : nat := match p with Real cs => length cs | Virtual s => length s end.
(** Set [i] lists the deepest root enclosing [p], and is the first to list it;
    or no root encloses [p] and [i] is the default set. *)
Definition nearest_dir (roots : list (list vpath)) (i : nat) (p : vpath) : Prop :=
  (exists root, configured roots i root /\ encloses root p /\
     forall j root', configured roots j root' -> encloses root' p ->
       (depth root' < depth root)%nat \/ root' = root /\ (i <= j)%nat)
  \/ (i = length roots /\ forall j root', configured roots j root' -> ~ encloses root' p).
(** [root] spells the start of the name of a directory beside it *)
Definition misleading (root p : vpath) : Prop := above root p /\ ~ encloses root p.
