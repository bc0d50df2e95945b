(** Model of the analysis database: crates/base_db/src/{change,input,lib}.rs,
    crates/ide_db/src/{apply_change,lib}.rs and
    crates/move_language_server/src/reload.rs:68-90.

    Salsa inputs are maps from keys to the values last set; reading an input
    that was never set panics.  Derived queries ([parse], [line_index]) are the
    functions of the inputs they are declared to be: salsa's memoisation is
    trusted. *)
From Verif Require Import Base Vfs FileSet.
Local Open Scope N_scope.

(** base_db/src/input.rs:21-29 [SourceRoot] *)
Record source_root := { sr_library : bool; sr_files : file_set }.

(** base_db/src/lib.rs:52-77 [SourceDatabase], the inputs *)
Record database := {
  db_text : list (N * text);               (* file_text *)
  db_file_root : list (N * N);             (* file_source_root *)
  db_roots : list (N * source_root);       (* source_root *)
  db_local : list N;                       (* local_roots *)
  db_library : list N                      (* library_roots *)
}.
(** ide_db/src/lib.rs:48-55 [RootDatabase::new] *)
Definition db_new : database :=
  {| db_text := []; db_file_root := []; db_roots := []; db_local := []; db_library := [] |}.

Definition file_text (db : database) (id : N) : res text := unwrap (alookup N.eqb id (db_text db)).
Definition file_source_root (db : database) (id : N) : res N := unwrap (alookup N.eqb id (db_file_root db)).
Definition get_source_root (db : database) (r : N) : res source_root := unwrap (alookup N.eqb r (db_roots db)).

Definition set_file_text (db : database) (id : N) (t : text) : database :=
  {| db_text := ainsert N.eqb id t (db_text db); db_file_root := db_file_root db; db_roots := db_roots db;
     db_local := db_local db; db_library := db_library db |}.
Definition set_file_root (db : database) (id r : N) : database :=
  {| db_text := db_text db; db_file_root := ainsert N.eqb id r (db_file_root db); db_roots := db_roots db;
     db_local := db_local db; db_library := db_library db |}.
Definition set_source_root (db : database) (r : N) (s : source_root) : database :=
  {| db_text := db_text db; db_file_root := db_file_root db; db_roots := ainsert N.eqb r s (db_roots db);
     db_local := db_local db; db_library := db_library db |}.
Definition set_root_sets (db : database) (local library : list N) : database :=
  {| db_text := db_text db; db_file_root := db_file_root db; db_roots := db_roots db;
     db_local := local; db_library := library |}.

(** base_db/src/change.rs:13-16 [Change] *)
Record db_change := { dc_roots : option (list source_root); dc_files : list (N * option text) }.

(** change.rs:45-54; the index is written as a u32 ([idx as u32]) *)
Fixpoint apply_roots (i : N) (roots : list source_root) (db : database) : database :=
  match roots with
  | [] => db
  | root :: rest =>
      let db := fold_left (fun db id => set_file_root db id (i mod u32_bound)) (fs_iter (sr_files root)) db in
      apply_roots (i + 1) rest (set_source_root db (i mod u32_bound) root)
  end.
(** change.rs:56-63; the durability only matters for salsa's caches, but
    reading the source root of the file can panic *)
Fixpoint apply_files (files : list (N * option text)) (db : database) : res database :=
  match files with
  | [] => Ok db
  | (id, t) :: rest =>
      let! rid := file_source_root db id in
      let! _ := get_source_root db rid in
      apply_files rest (set_file_text db id (match t with Some t => t | None => [] end))
  end.
(** change.rs:44-65 [Change::apply] *)
Definition change_apply (c : db_change) (db : database) : res database :=
  apply_files (dc_files c) (match dc_roots c with Some roots => apply_roots 0 roots db | None => db end).

(** ide_db/src/apply_change.rs:14-27 *)
Fixpoint root_ids (i : N) (roots : list source_root) (library : bool) : list N :=
  match roots with
  | [] => []
  | r :: rest => (if Bool.eqb (sr_library r) library then [i mod u32_bound] else []) ++ root_ids (i + 1) rest library
  end.
(** apply_change.rs:12-30 [RootDatabase::apply_change]; [request_cancellation]
    is the caller's business (Server.v) *)
Definition apply_change (c : db_change) (db : database) : res database :=
  change_apply c (match dc_roots c with
                  | Some roots => set_root_sets db (root_ids 0 roots false) (root_ids 0 roots true)
                  | None => db
                  end).

(** move_language_server/src/reload.rs:68-72 [SourceRootConfig] *)
Record root_config := { rc_fsc : file_set_config; rc_local : list nat }.
(** reload.rs:75-89 [SourceRootConfig::partition] *)
Fixpoint number_roots (local : list nat) (i : nat) (sets : list file_set) : list source_root :=
  match sets with
  | [] => []
  | s :: rest => {| sr_library := negb (existsb (Nat.eqb i) local); sr_files := s |} :: number_roots local (S i) rest
  end.
Definition root_partition (c : root_config) (v : vfs) : res (list source_root) :=
  let! sets := fsc_partition (rc_fsc c) v in Ok (number_roots (rc_local c) 0 sets).
(** [#[derive(Default)]], and crates/vfs/src/file_set.rs:95-99
    [FileSetConfig::default], which builds from no roots *)
Definition root_config_default : root_config := {| rc_fsc := {| fsc_n := 1; fsc_map := [] |}; rc_local := [] |}.
