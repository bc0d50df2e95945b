(** Model of crates/vfs/src/file_set.rs. *)
From Verif Require Import Base Utf8 Vfs VfsPath.
Local Open Scope N_scope.

(** file_set.rs:14-17 [FileSet] *)
Record file_set := {
  fs_files : list (vpath * file_id);
  fs_paths : list (file_id * vpath)
}.
Definition file_set_default : file_set := {| fs_files := []; fs_paths := [] |}.

(** :21-23 [len] *)
Definition fs_len (f : file_set) : nat := length (fs_files f).
(** :37-39 [file_for_path], :42-44 [path_for_file] *)
Definition fs_file_for_path (f : file_set) (p : vpath) : option file_id := alookup vpath_eqb p (fs_files f).
Definition fs_path_for_file (f : file_set) (id : file_id) : option vpath := alookup N.eqb id (fs_paths f).
(** :50-53 [insert] *)
Definition fs_insert (f : file_set) (id : file_id) (p : vpath) : file_set :=
  {| fs_files := ainsert vpath_eqb p id (fs_files f);
     fs_paths := ainsert N.eqb id p (fs_paths f) |}.
(** :56-58 [iter] (order of a hash map: unspecified) *)
Definition fs_iter (f : file_set) : list file_id := map fst (fs_paths f).
(** :29-34 [resolve_path]: indexing [self.paths[&anchor]] panics if absent *)
Definition fs_resolve_path (f : file_set) (anchor : file_id) (path : text) : res (option file_id) :=
  let! base := index (fs_path_for_file f anchor) in
  let base' := fst (vpath_pop base) in
  Ok (match vpath_join base' path with
      | Some p => fs_file_for_path f p
      | None => None
      end).

(** Lexicographic order on byte strings (Ord for Vec<u8>). *)
Fixpoint bytes_cmp (a b : bytes) : comparison :=
  match a, b with
  | [], [] => Eq
  | [], _ :: _ => Lt
  | _ :: _, [] => Gt
  | x :: a', y :: b' => match x ?= y with Eq => bytes_cmp a' b' | c => c end
  end.
(** Ord for (Vec<u8>, u64) *)
Definition entry_leb (a b : bytes * N) : bool :=
  match bytes_cmp (fst a) (fst b) with Lt => true | Gt => false | Eq => snd a <=? snd b end.
Fixpoint entry_insert (e : bytes * N) (l : list (bytes * N)) : list (bytes * N) :=
  match l with
  | [] => [e]
  | x :: r => if entry_leb e x then e :: l else x :: entry_insert e r
  end.
(** entries.sort() *)
Fixpoint entry_sort (l : list (bytes * N)) : list (bytes * N) :=
  match l with [] => [] | x :: r => entry_insert x (entry_sort r) end.

(** entries.dedup_by(|(a,_),(b,_)| a == b): removes an element whose key
    equals that of the last kept one. *)
Fixpoint entry_dedup_after (last : bytes) (l : list (bytes * N)) : list (bytes * N) :=
  match l with
  | [] => []
  | e :: r => if bytes_eqb (fst e) last then entry_dedup_after last r
              else e :: entry_dedup_after (fst e) r
  end.
Definition entry_dedup (l : list (bytes * N)) : list (bytes * N) :=
  match l with [] => [] | e :: r => e :: entry_dedup_after (fst e) r end.

(** fst::Map::from_iter fails unless keys are strictly increasing. *)
Fixpoint strictly_increasing (l : list (bytes * N)) : bool :=
  match l with
  | a :: ((b :: _) as r) =>
      match bytes_cmp (fst a) (fst b) with Lt => strictly_increasing r | _ => false end
  | _ => true
  end.

(** :85-93 [FileSetConfig]; the fst map is its sorted list of entries. *)
Record file_set_config := { fsc_n : nat; fsc_map : list (bytes * N) }.

(** :167-174: entries in order, tagged by the index of their set *)
Fixpoint entries_from (i : N) (roots : list (list vpath)) : list (bytes * N) :=
  match roots with
  | [] => []
  | ps :: r => map (fun p => (vpath_encode p, i)) ps ++ entries_from (i + 1) r
  end.

(** :164-180 [FileSetConfigBuilder::build] *)
Definition fsc_build (roots : list (list vpath)) : res file_set_config :=
  let entries := entry_dedup (entry_sort (entries_from 0 roots)) in
  if strictly_increasing entries
  then Ok {| fsc_n := length roots + 1; fsc_map := entries |}
  else Panic PUnwrap.

(** :197-215 [PrefixOf] automaton; state [None] is [!0]. *)
Definition prefix_accept (prefix_of : bytes) (st : option nat) (b : N) : option nat :=
  match st with
  | None => None
  | Some i => match nth_error prefix_of i with
              | Some x => if x =? b then Some (S i) else None
              | None => None
              end
  end.
Definition prefix_match (prefix_of key : bytes) : bool :=
  match fold_left (prefix_accept prefix_of) key (Some O) with Some _ => true | None => false end.

(** :128-138 [classify]: the stream yields matching keys in key order. *)
Definition fsc_classify (c : file_set_config) (p : vpath) : nat :=
  let enc := vpath_encode p in
  fold_left (fun longest e => if prefix_match enc (fst e) then N.to_nat (snd e) else longest)
            (fsc_map c) (fsc_n c - 1)%nat.

(** :110-118 [partition] *)
Fixpoint partition_loop (c : file_set_config) (files : list (file_id * vpath)) (r : list file_set)
  : res (list file_set) :=
  match files with
  | [] => Ok r
  | (id, p) :: rest =>
      let root := fsc_classify c p in
      let! s := index (nth_error r root) in
      partition_loop c rest (set_nth r root (fs_insert s id p))
  end.
Definition fsc_partition (c : file_set_config) (v : vfs) : res (list file_set) :=
  let! files := vfs_iter v in
  partition_loop c files (repeat file_set_default (fsc_n c)).
