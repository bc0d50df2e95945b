(** Model of crates/paths/src/lib.rs and of the file-system paths of
    crates/vfs/src/vfs_path.rs on the bytes they are made of (Unix).  The
    methods of std::path::Path and PathBuf that the code calls are modelled by
    what std (library/std/src/path.rs) does on Unix, where a path has no
    prefix and '/' is the only separator. *)
From Verif Require Import Base Utf8 Vfs VfsPath.
Local Open Scope N_scope.

(** ** std::path *)

(** Path::is_absolute and Path::has_root *)
Definition is_absolute (p : bytes) : bool :=
  match p with c :: _ => c =? cSlash | [] => false end.
(** Components::include_cur_dir: a '.' at the start of a relative path *)
Definition leading_dot (p : bytes) : bool :=
  match p with
  | [c] => c =? cDot
  | c :: d :: _ => (c =? cDot) && (d =? cSlash)
  | [] => false
  end.
(** Path::components.  [comp_of] is Components::parse_single_component: empty
    parts and '.' are no components. *)
Definition path_components (p : bytes) : list comp :=
  (if is_absolute p then [RootDir] else if leading_dot p then [CurDir] else [])
  ++ flat_map comp_of (split_slash p).

(** Component as compared by ==, and the order-insensitive part of
    PathBuf's ==: component by component *)
Definition comp_eqb (a b : comp) : bool :=
  match a, b with
  | RootDir, RootDir | CurDir, CurDir | ParentDir, ParentDir => true
  | Normal s, Normal t => text_eqb s t
  | _, _ => false
  end.
Fixpoint comps_eqb (a b : list comp) : bool :=
  match a, b with
  | [], [] => true
  | x :: a', y :: b' => comp_eqb x y && comps_eqb a' b'
  | _, _ => false
  end.
Definition path_eqb (p q : bytes) : bool := comps_eqb (path_components p) (path_components q).

(** PathBuf::push: an absolute argument replaces the path; otherwise a
    separator goes in between unless there is one or nothing comes before *)
Definition need_sep (p : bytes) : bool :=
  match rev p with c :: _ => negb (c =? cSlash) | [] => false end.
Definition path_push (p q : bytes) : bytes :=
  if is_absolute q then q else p ++ (if need_sep p then [cSlash] else []) ++ q.

(** Concatenation of parts with '/'. *)
Fixpoint joined (l : list bytes) : bytes :=
  match l with
  | [] => []
  | [s] => s
  | s :: r => s ++ cSlash :: joined r
  end.
(** Components::len_before_body: the root or the leading '.', and the rest *)
Definition path_start (p : bytes) : bytes * bytes :=
  if is_absolute p || leading_dot p then (firstn 1 p, skipn 1 p) else ([], p).
(** Components::trim_right, on the parts of the body from the last to the
    first, and Components::trim_left: drop what is no component *)
Fixpoint trimmed (parts : list bytes) : list bytes :=
  match parts with
  | s :: r => match comp_of s with [] => trimmed r | _ => parts end
  | [] => []
  end.
(** Path::parent = Components::next_back, then Components::as_path *)
Definition path_parent (p : bytes) : option bytes :=
  let '(front, body) := path_start p in
  match trimmed (rev (split_slash body)) with
  | _ :: r => Some (front ++ joined (rev (trimmed r)))
  | [] => if is_absolute p then None else match front with [] => None | _ => Some [] end
  end.
(** PathBuf::pop truncates to the parent *)
Definition path_pop (p : bytes) : bytes * bool :=
  match path_parent p with Some q => (q, true) | None => (p, false) end.

(** std::path::iter_after: what is left after the components of the prefix *)
Fixpoint iter_after (l prefix : list comp) {struct prefix} : option (list comp) :=
  match prefix with
  | [] => Some l
  | y :: prefix' => match l with
                    | x :: l' => if comp_eqb x y then iter_after l' prefix' else None
                    | [] => None
                    end
  end.
Definition path_starts_with (p q : bytes) : bool :=
  match iter_after (path_components p) (path_components q) with Some _ => true | None => false end.
Definition path_ends_with (p q : bytes) : bool :=
  match iter_after (rev (path_components p)) (rev (path_components q)) with Some _ => true | None => false end.
(** The same iteration on the parts of the body: Components::next drops a part
    with its separator *)
Fixpoint parts_after (parts : list bytes) (prefix : list comp) : option (list bytes) :=
  match prefix with
  | [] => Some parts
  | y :: prefix' =>
      match trimmed parts with
      | s :: r => match comp_of s with
                  | x :: _ => if comp_eqb x y then parts_after r prefix' else None
                  | [] => None
                  end
      | [] => None
      end
  end.
(** Path::strip_prefix when both paths are absolute (the only use): the root is
    consumed, then the components of the prefix; Components::as_path trims what
    is left on both sides. *)
Definition path_strip_prefix (p base : bytes) : option bytes :=
  match parts_after (split_slash (skipn 1 p)) (skipn 1 (path_components base)) with
  | Some parts => Some (joined (rev (trimmed (rev (trimmed parts)))))
  | None => None
  end.

(** Path::file_name *)
Definition path_file_name (p : bytes) : option bytes :=
  match rev (path_components p) with Normal s :: _ => Some s | _ => None end.
(** std::path::rsplit_file_at_dot; a file name is never ".." here *)
Definition rsplit_file_at_dot (file : bytes) : option bytes * option bytes :=
  match rsplit_at cDot file with
  | None => (None, Some file)
  | Some ([], _) => (Some file, None)
  | Some (before, after) => (Some before, Some after)
  end.
(** Path::file_stem and Path::extension *)
Definition path_file_stem (p : bytes) : option bytes :=
  match path_file_name p with
  | None => None
  | Some f => match rsplit_file_at_dot f with (Some b, _) => Some b | (None, a) => a end
  end.
Definition path_extension (p : bytes) : option bytes :=
  match path_file_name p with
  | None => None
  | Some f => match rsplit_file_at_dot f with (Some _, a) => a | (None, _) => None end
  end.

(** ** crates/paths/src/lib.rs *)

(** lib.rs:45-60 [AbsPathBuf::try_from] *)
Definition abs_path_buf (p : bytes) : option bytes := if is_absolute p then Some p else None.
(** lib.rs:74-77 [AbsPathBuf::assert] *)
Definition abs_path_buf_assert (p : bytes) : res bytes :=
  match abs_path_buf p with Some p => Ok p | None => Panic PAssert end.
(** lib.rs:120-123 [AbsPath::assert]; also :82-84 [AbsPathBuf::as_path] *)
Definition abs_assert (p : bytes) : res bytes := if is_absolute p then Ok p else Panic PAssert.
(** lib.rs:106-114 [<&AbsPath>::try_from] *)
Definition abs_try_from (p : bytes) : res (option bytes) :=
  if negb (is_absolute p) then Ok None else let! q := abs_assert p in Ok (Some q).
(** lib.rs:90-92 [AbsPathBuf::pop] *)
Definition abs_pop (p : bytes) : bytes * bool := path_pop p.
(** lib.rs:126-128 [AbsPath::parent] *)
Definition abs_parent (p : bytes) : res (option bytes) :=
  match path_parent p with
  | None => Ok None
  | Some q => let! q := abs_assert q in Ok (Some q)
  end.
(** lib.rs:131-133 [AbsPath::join] *)
Definition abs_join (p q : bytes) : res bytes := unwrap (abs_path_buf (path_push p q)).
(** lib.rs:152-154 [AbsPath::to_path_buf] *)
Definition abs_to_path_buf (p : bytes) : res bytes := unwrap (abs_path_buf p).
(** lib.rs:159-161 [AbsPath::strip_prefix], :162-164 [starts_with], :165-167
    [ends_with] *)
Definition abs_strip_prefix (p base : bytes) : option bytes := path_strip_prefix p base.
Definition abs_starts_with (p base : bytes) : bool := path_starts_with p base.
Definition abs_ends_with (p suffix : bytes) : bool := path_ends_with p suffix.
(** lib.rs:220-228 [RelPathBuf::try_from] *)
Definition rel_path_buf (p : bytes) : option bytes := if is_absolute p then None else Some p.

(** lib.rs:281-295, one round of the loop of [normalize_path] *)
Definition norm_step (ret : bytes) (c : comp) : bytes :=
  match c with
  | RootDir => path_push ret [cSlash]
  | CurDir => ret
  | ParentDir => fst (path_pop ret)
  | Normal s => path_push ret s
  end.
(** lib.rs:272-297 [normalize_path]; lib.rs:147-149 [AbsPath::normalize] *)
Definition abs_normalize (p : bytes) : bytes := fold_left norm_step (path_components p) [].

(** ** crates/vfs/src/vfs_path.rs, file-system paths *)

(** vfs_path.rs:277-281 [VfsPath::from] *)
Definition vfs_from (p : bytes) : bytes := abs_normalize p.
(** vfs_path.rs:37-42 [VfsPath::join] *)
Definition vfs_join (p q : bytes) : res bytes := let! r := abs_join p q in Ok (abs_normalize r).
(** vfs_path.rs:65-67 [VfsPath::pop] *)
Definition vfs_pop (p : bytes) : bytes * bool := abs_pop p.
(** vfs_path.rs:85-92 [VfsPath::parent] *)
Definition vfs_parent (p : bytes) : option bytes := let '(q, ok) := vfs_pop p in if ok then Some q else None.
(** vfs_path.rs:113-118, 146-150 [VfsPath::encode] *)
Definition vfs_encode (p : bytes) : bytes := 0 :: p.
(** vfs_path.rs:95-100 [VfsPath::name_and_extension]; a name that is not UTF-8
    gives None (OsStr::to_str) *)
Definition os_to_str (s : bytes) : option text := decode s.
Definition vfs_name_and_extension (p : bytes) : option (text * option text) :=
  match path_file_stem p with
  | None => None
  | Some s => match os_to_str s with
              | None => None
              | Some s => Some (s, match path_extension p with Some e => os_to_str e | None => None end)
              end
  end.

(** ** crates/project_model/src/manifest_path.rs *)

(** manifest_path.rs:20-31 [ManifestPath::try_from] *)
Definition manifest_path (file : bytes) : res (option bytes) :=
  let! parent := abs_parent file in Ok (match parent with Some _ => Some file | None => None end).
(** manifest_path.rs:34-36 [ManifestPath::parent] *)
Definition manifest_parent (file : bytes) : res bytes := let! parent := abs_parent file in unwrap parent.
