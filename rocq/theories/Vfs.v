(** Model of crates/vfs/src/lib.rs (Vfs) and crates/vfs/src/path_interner.rs. *)
From Verif Require Import Base Utf8.
Local Open Scope N_scope.

(** crates/vfs/src/vfs_path.rs:12-13, [VfsPath(VfsPathRepr)].  A real path is
    an absolute Unix path given by its components after the root: Rust's
    PathBuf equality and hash are component-wise, so this is the value the
    hash maps see.  Simplification: Windows prefixes are not modelled. *)
Inductive vpath :=
| Real (comps : list text)      (* VfsPathRepr::PathBuf *)
| Virtual (s : text).           (* VfsPathRepr::VirtualPath *)

Fixpoint texts_eqb (a b : list text) : bool :=
  match a, b with
  | [], [] => true
  | x :: a', y :: b' => text_eqb x y && texts_eqb a' b'
  | _, _ => false
  end.
Definition vpath_eqb (a b : vpath) : bool :=
  match a, b with
  | Real x, Real y => texts_eqb x y
  | Virtual x, Virtual y => text_eqb x y
  | _, _ => false
  end.

(** vfs/src/lib.rs:60 [FileId(u32)] *)
Notation file_id := N (only parsing).

(** lib.rs:95-102 [ChangeKind], :73-78 [ChangedFile] *)
Inductive change_kind := Create | Modify | Delete.
Record changed_file := { cf_id : file_id; cf_kind : change_kind }.

(** lib.rs:82-84 [ChangedFile::exists] *)
Definition cf_exists (c : changed_file) : bool :=
  match cf_kind c with Delete => false | _ => true end.
(** lib.rs:88-90 [ChangedFile::is_created_or_deleted] *)
Definition cf_created_or_deleted (c : changed_file) : bool :=
  match cf_kind c with Modify => false | _ => true end.

(** lib.rs:66-70 [Vfs]; path_interner.rs:12-14: an IndexSet is the list of its
    elements in insertion order. *)
Record vfs := {
  v_interner : list vpath;
  v_data : list (option bytes);
  v_changes : list changed_file
}.
(** lib.rs:65 [#[derive(Default)]] *)
Definition vfs_default : vfs := {| v_interner := []; v_data := []; v_changes := [] |}.

(** IndexSet::get_index_of *)
Fixpoint index_of (p : vpath) (l : list vpath) : option nat :=
  match l with
  | [] => None
  | x :: r => if vpath_eqb x p then Some O else option_map S (index_of p r)
  end.

(** path_interner.rs:26-28 [PathInterner::get] *)
Definition interner_get (l : list vpath) (p : vpath) : option file_id :=
  option_map N.of_nat (index_of p l).
(** path_interner.rs:34-38 [PathInterner::intern], insert_full then assert *)
Definition interner_intern (l : list vpath) (p : vpath) : res (list vpath * file_id) :=
  let '(l', id) := match index_of p l with
                   | Some i => (l, i)
                   | None => (l ++ [p], length l)
                   end in
  if N.of_nat id <? u32_max then Ok (l', N.of_nat id) else Panic PAssert.
(** path_interner.rs:45-47 [PathInterner::lookup] *)
Definition interner_lookup (l : list vpath) (id : file_id) : res vpath :=
  unwrap (nth_error l (N.to_nat id)).

(** lib.rs:200-202 [Vfs::get] *)
Definition vfs_get (v : vfs) (id : file_id) : res (option bytes) :=
  index (nth_error (v_data v) (N.to_nat id)).

(** lib.rs:113-115 [Vfs::file_id] *)
Definition vfs_file_id (v : vfs) (p : vpath) : res (option file_id) :=
  match interner_get (v_interner v) p with
  | None => Ok None
  | Some id => let! d := vfs_get v id in
               Ok (match d with Some _ => Some id | None => None end)
  end.
(** lib.rs:122-124 [Vfs::file_path] *)
Definition vfs_file_path (v : vfs) (id : file_id) : res vpath :=
  interner_lookup (v_interner v) id.
(** lib.rs:132-134 [Vfs::file_contents] *)
Definition vfs_file_contents (v : vfs) (id : file_id) : res bytes :=
  let! d := vfs_get v id in unwrap d.
(** lib.rs:139-147 [Vfs::iter]: live files in id order *)
Fixpoint vfs_iter_from (v : vfs) (ids : list nat) : res (list (file_id * vpath)) :=
  match ids with
  | [] => Ok []
  | i :: r =>
      let! d := vfs_get v (N.of_nat i) in
      match d with
      | None => vfs_iter_from v r
      | Some _ =>
          let! p := interner_lookup (v_interner v) (N.of_nat i) in
          let! rest := vfs_iter_from v r in
          Ok ((N.of_nat i, p) :: rest)
      end
  end.
Definition vfs_iter (v : vfs) : res (list (file_id * vpath)) :=
  vfs_iter_from v (seq 0 (length (v_data v))).

Definition resize_none (l : list (option bytes)) (n : nat) : list (option bytes) :=
  firstn n l ++ repeat None (n - length l).

(** lib.rs:187-193 [Vfs::alloc_file_id] *)
Definition vfs_alloc (v : vfs) (p : vpath) : res (vfs * file_id) :=
  let! (l, id) := interner_intern (v_interner v) p in
  let len := Nat.max (length (v_data v)) (N.to_nat id + 1) in
  Ok ({| v_interner := l; v_data := resize_none (v_data v) len; v_changes := v_changes v |}, id).

(** *self.get_mut(id) = c  (lib.rs:209-211) *)
Fixpoint set_nth {A} (l : list A) (n : nat) (x : A) : list A :=
  match l, n with
  | [], _ => []
  | _ :: r, O => x :: r
  | y :: r, S n' => y :: set_nth r n' x
  end.

Fixpoint bytes_eqb (a b : bytes) : bool :=
  match a, b with
  | [], [] => true
  | x :: a', y :: b' => (x =? y) && bytes_eqb a' b'
  | _, _ => false
  end.

(** lib.rs:155-168 [Vfs::set_file_contents] *)
Definition vfs_set (v : vfs) (p : vpath) (c : option bytes) : res (vfs * bool) :=
  let! (v1, id) := vfs_alloc v p in
  let! old := vfs_get v1 id in
  let write k :=
    Ok ({| v_interner := v_interner v1;
           v_data := set_nth (v_data v1) (N.to_nat id) c;
           v_changes := v_changes v1 ++ [{| cf_id := id; cf_kind := k |}] |}, true) in
  match old, c with
  | None, None => Ok (v1, false)
  | None, Some _ => write Create
  | Some _, None => write Delete
  | Some o, Some n => if bytes_eqb o n then Ok (v1, false) else write Modify
  end.

(** lib.rs:171-173 [has_changes], :176-178 [take_changes] *)
Definition vfs_has_changes (v : vfs) : bool := match v_changes v with [] => false | _ => true end.
Definition vfs_take_changes (v : vfs) : vfs * list changed_file :=
  ({| v_interner := v_interner v; v_data := v_data v; v_changes := [] |}, v_changes v).

(** Histories of the public mutating API. *)
Inductive vop := VWrite (p : vpath) (c : option bytes) | VTake.
Inductive vout := OWrote (b : bool) | OTook (l : list changed_file).

Definition vfs_step (v : vfs) (o : vop) : res (vfs * vout) :=
  match o with
  | VWrite p c => let! (v', b) := vfs_set v p c in Ok (v', OWrote b)
  | VTake => let '(v', l) := vfs_take_changes v in Ok (v', OTook l)
  end.
Fixpoint vfs_run (v : vfs) (ops : list vop) : res (vfs * list vout) :=
  match ops with
  | [] => Ok (v, [])
  | o :: r => let! (v1, x) := vfs_step v o in
              let! (v2, xs) := vfs_run v1 r in Ok (v2, x :: xs)
  end.
