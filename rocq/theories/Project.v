(** Model of crates/project_model/src/lib.rs and manifest_path.rs.

    An absolute path is the list of its components after the root (std::path
    drops "." and repeated separators of an absolute path, and compares,
    orders and takes parents by components). *)
From Coq Require Import String.
From Verif Require Import Base.
Local Open Scope N_scope.

Inductive pcomp := Up | Name (s : text).        (* ".." or a file name *)
Definition abs_path := list pcomp.
Definition pcomp_eqb (a b : pcomp) : bool :=
  match a, b with Up, Up => true | Name x, Name y => text_eqb x y | _, _ => false end.
Fixpoint path_eqb (a b : abs_path) : bool :=
  match a, b with
  | [], [] => true
  | x :: a, y :: b => pcomp_eqb x y && path_eqb a b
  | _, _ => false
  end.
(** std: [Path::parent], [Path::file_name], [Path::join] of a relative name *)
Definition parent (p : abs_path) : option abs_path := match p with [] => None | _ => Some (removelast p) end.
Definition file_name (p : abs_path) : option text := match last p Up with Name s => Some s | Up => None end.
Definition join (p : abs_path) (name : text) : abs_path := p ++ [Name name].
(** std: [Ord for Path]: components in lexicographic order, ".." before names;
    bytes of UTF-8 order like code points *)
Fixpoint text_cmp (a b : text) : comparison :=
  match a, b with
  | [], [] => Eq
  | [], _ => Lt
  | _, [] => Gt
  | x :: a, y :: b => match x ?= y with Eq => text_cmp a b | c => c end
  end.
Definition pcomp_cmp (a b : pcomp) : comparison :=
  match a, b with Up, Up => Eq | Up, _ => Lt | _, Up => Gt | Name x, Name y => text_cmp x y end.
Fixpoint path_cmp (a b : abs_path) : comparison :=
  match a, b with
  | [], [] => Eq
  | [], _ => Lt
  | _, [] => Gt
  | x :: a, y :: b => match pcomp_cmp x y with Eq => path_cmp a b | c => c end
  end.

(** The file system, as the program sees it: whether [metadata] succeeds, and
    the entries of a directory (or an error; entries that fail are [None]). *)
Record filesystem := { exists_ : abs_path -> bool; read_dir : abs_path -> option (list (option abs_path)) }.

(** manifest_path.rs:16-30 [ManifestPath] *)
Inductive manifest := Manifest (file : abs_path).
Definition manifest_file (m : manifest) : abs_path := match m with Manifest f => f end.
Definition manifest_try_from (p : abs_path) : option manifest :=
  match parent p with None => None | Some _ => Some (Manifest p) end.
(** manifest_path.rs:34-36 [ManifestPath::parent] *)
Definition manifest_parent (m : manifest) : res abs_path := unwrap (parent (manifest_file m)).

Definition DOVE_TOML : text := `"Dove.toml".
Definition is_named (p : abs_path) (name : text) : bool :=
  text_eqb (match file_name p with Some s => s | None => [] end) name.

(** project_model/src/lib.rs:26-39 [from_manifest_file]; [None] is an [Err] *)
Definition from_manifest_file (p : abs_path) : option manifest :=
  match manifest_try_from p with
  | None => None
  | Some m => if is_named p DOVE_TOML then Some m else None
  end.

(** std: [Path::ancestors]-like iteration of project_model/src/lib.rs:75-85;
    [fuel] is the number of components left plus one *)
Fixpoint parent_loop (fs : filesystem) (target : text) (fuel : nat) (curr : option abs_path) : res (option manifest) :=
  match curr with
  | None => Ok None
  | Some path =>
      match fuel with
      | O => Fuel
      | S fuel =>
          let candidate := join path target in
          match (if exists_ fs candidate then manifest_try_from candidate else None) with
          | Some m => Ok (Some m)
          | None => parent_loop fs target fuel (parent path)
          end
      end
  end.
(** project_model/src/lib.rs:68-88 [find_in_parent_dirs] *)
Definition find_in_parent_dirs (fs : filesystem) (path : abs_path) (target : text) : res (option manifest) :=
  match (if is_named path target then manifest_try_from path else None) with
  | Some m => Ok (Some m)
  | None => parent_loop fs target (S (length path)) (Some path)
  end.
(** project_model/src/lib.rs:90-99 [find_cargo_toml_in_child_dir] *)
Definition find_in_child_dirs (fs : filesystem) (entities : list (option abs_path)) : list manifest :=
  flat_map (fun e => match e with
    | None => []
    | Some p =>
        let it := join p DOVE_TOML in
        if exists_ fs it then match manifest_try_from it with Some m => [m] | None => [] end else []
    end) entities.
(** project_model/src/lib.rs:54-66 [discover]; [Ok None] is an [io::Error] *)
Definition discover (fs : filesystem) (path : abs_path) : res (option (list manifest)) :=
  let! found := find_in_parent_dirs fs path DOVE_TOML in
  match found with
  | Some m => Ok (Some [m])
  | None => match read_dir fs path with
            | None => Ok None
            | Some es => Ok (Some (find_in_child_dirs fs es))
            end
  end.
(** project_model/src/lib.rs:41-52 [discover_single]; [None] is an [Err] *)
Definition discover_single (fs : filesystem) (path : abs_path) : res (option manifest) :=
  let! candidates := discover fs path in
  match candidates with
  | None => Ok None
  | Some ms => match rev ms with
               | [] => Ok None
               | m :: rest => match rest with [] => Ok (Some m) | _ => Ok None end
               end
  end.

(** project_model/src/lib.rs:102-112 [discover_all].  A hash set is a
    duplicate-free list in an order the program does not control: [order]. *)
Definition manifest_eqb (a b : manifest) : bool := path_eqb (manifest_file a) (manifest_file b).
Fixpoint dedup (l : list manifest) : list manifest :=
  match l with
  | [] => []
  | m :: r => if existsb (manifest_eqb m) (dedup r) then dedup r else m :: dedup r
  end.
Fixpoint insert_sorted (m : manifest) (l : list manifest) : list manifest :=
  match l with
  | [] => [m]
  | x :: r => match path_cmp (manifest_file m) (manifest_file x) with
              | Gt => x :: insert_sorted m r
              | _ => m :: l
              end
  end.
(** std: [slice::sort] *)
Fixpoint sort (l : list manifest) : list manifest :=
  match l with [] => [] | m :: r => insert_sorted m (sort r) end.
Fixpoint discover_each (fs : filesystem) (paths : list abs_path) : res (list manifest) :=
  match paths with
  | [] => Ok []
  | p :: r => let! o := discover fs p in
              let! rest := discover_each fs r in
              Ok (match o with Some ms => ms ++ rest | None => rest end)
  end.
Definition discover_all (order : list manifest -> list manifest) (fs : filesystem) (paths : list abs_path) : res (list manifest) :=
  let! ms := discover_each fs paths in Ok (sort (order (dedup ms))).
