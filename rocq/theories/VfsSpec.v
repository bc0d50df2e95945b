(** Specification of the VFS: a map from paths to their last written contents. *)
From Verif Require Import Base Vfs.

(** What a reader of [p] should see after a history. *)
Fixpoint last_write (p : vpath) (cur : option (list N)) (ops : list vop) : option (list N) :=
  match ops with
  | [] => cur
  | VWrite q c :: r => last_write p (if vpath_eqb q p then c else cur) r
  | VTake :: r => last_write p cur r
  end.

(** Replaying a change log over a set of live files: creating needs a dead
    file, modifying and deleting a live one. *)
Definition replay1 (live : N -> bool) (c : changed_file) : option (N -> bool) :=
  match cf_kind c with
  | Create => if live (cf_id c) then None else Some (fun i => if N.eqb i (cf_id c) then true else live i)
  | Modify => if live (cf_id c) then Some live else None
  | Delete => if live (cf_id c) then Some (fun i => if N.eqb i (cf_id c) then false else live i) else None
  end.
Fixpoint replay (live : N -> bool) (log : list changed_file) : option (N -> bool) :=
  match log with
  | [] => Some live
  | c :: r => match replay1 live c with Some live' => replay live' r | None => None end
  end.

(** Everything ever handed out by take_changes, oldest first. *)
Fixpoint taken (outs : list vout) : list changed_file :=
  match outs with
  | [] => []
  | OTook l :: r => l ++ taken r
  | OWrote _ :: r => taken r
  end.

Definition live (v : vfs) (i : N) : bool :=
  match nth_error (v_data v) (N.to_nat i) with Some (Some _) => true | _ => false end.
