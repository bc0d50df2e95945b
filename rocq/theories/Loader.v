(** Model of crates/vfs/src/loader.rs, [Entry] and [Directories].  An absolute
    path is the list of its components after the root. *)
From Coq Require Import String.
From Verif Require Import Base Vfs VfsPath.
Local Open Scope N_scope.

(** loader.rs:24-32 [Directories] *)
Record directories := {
  d_extensions : list text;
  d_include : list (list text);
  d_exclude : list (list text)
}.
(** loader.rs:14-21 [Entry] *)
Inductive entry := EFiles (fs : list (list text)) | EDirs (d : directories).

(** std Path::file_name: the last component unless it is '..' *)
Definition file_name (p : list text) : option text :=
  match rev p with
  | [] => None
  | n :: _ => if text_eqb n [cDot; cDot] then None else Some n
  end.
(** std Path::extension: what follows the last '.', unless that dot starts the
    name *)
Definition extension (p : list text) : option text :=
  match file_name p with
  | None => None
  | Some n => match rsplit_at cDot n with
              | None => None
              | Some ([], _) => None
              | Some (_, ext) => Some ext
              end
  end.

(** std Path::starts_with *)
Definition path_starts_with (p base : list text) : bool := texts_prefix base p.

(** loader.rs:164-172, the loop computing the include rule *)
Definition include_step (path : list text) (include : option (list text)) (incl : list text)
  : option (list text) :=
  if path_starts_with path incl then
    Some (match include with
          | Some prev => if path_starts_with prev incl then prev else incl
          | None => incl
          end)
  else include.
(** loader.rs:163-180 [includes_path] *)
Definition includes_path (d : directories) (path : list text) : bool :=
  match fold_left (include_step path) (d_include d) None with
  | None => false
  | Some include =>
      negb (existsb (fun excl => path_starts_with path excl && path_starts_with excl include) (d_exclude d))
  end.
(** loader.rs:138-147 *)
Definition dirs_contains_file (d : directories) (path : list text) : bool :=
  let ext := match extension path with Some e => e | None => [] end in
  if forallb (fun it => negb (text_eqb it ext)) (d_extensions d) then false
  else includes_path d path.
(** loader.rs:153-155 *)
Definition dirs_contains_dir (d : directories) (path : list text) : bool := includes_path d path.
(** loader.rs:117-133 *)
Definition entry_contains_file (e : entry) (path : list text) : bool :=
  match e with
  | EFiles fs => existsb (fun it => texts_eqb it path) fs
  | EDirs d => dirs_contains_file d path
  end.
Definition entry_contains_dir (e : entry) (path : list text) : bool :=
  match e with EFiles _ => false | EDirs d => dirs_contains_dir d path end.

(** AbsPath::join (paths/src/lib.rs): std PathBuf::push; an absolute argument
    replaces the base. *)
Definition abs_join (base : list text) (s : text) : list text :=
  match s with
  | c :: _ => if c =? cSlash then flat_map comp_text (components s)
              else base ++ flat_map comp_text (components s)
  | [] => base
  end.
(** loader.rs:191-194 [dirs] *)
Definition mk_dirs (base : list text) (exclude : list text) : directories :=
  {| d_extensions := [`"rs"]; d_include := [base]; d_exclude := map (abs_join base) exclude |}.
(** loader.rs:86-112 *)
Definition rs_files_recursively (base : list text) : entry := EDirs (mk_dirs base [`".git"]).
Definition local_cargo_package (base : list text) : entry := EDirs (mk_dirs base [`".git"; `"target"]).
Definition cargo_package_dependency (base : list text) : entry :=
  EDirs (mk_dirs base [`".git"; `"/tests"; `"/examples"; `"/benches"]).
