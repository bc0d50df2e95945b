(** Model of crates/vfs/src/vfs_path.rs and of normalize_path in
    crates/paths/src/lib.rs. *)
From Verif Require Import Base Utf8 Vfs.
Local Open Scope N_scope.

Definition cSlash : char := 47.
Definition cDot : char := 46.

(** ** Real (Unix) paths *)

(** std::path::Component; Prefix exists on Windows only and is not modelled. *)
Inductive comp := RootDir | CurDir | ParentDir | Normal (s : text).

(** A PathBuf value as a list of components: rooted or not, then components.
    std::path::PathBuf::pop = truncate to parent(): does nothing on the empty
    path and on the root. *)
Record pbuf := { pb_root : bool; pb_comps : list comp }.
Definition pbuf_pop (p : pbuf) : pbuf := {| pb_root := pb_root p; pb_comps := removelast (pb_comps p) |}.
(** PathBuf::push of the root replaces the whole path, of another component
    appends it. *)
Definition pbuf_push (p : pbuf) (c : comp) : pbuf :=
  match c with
  | RootDir => {| pb_root := true; pb_comps := [] |}
  | _ => {| pb_root := pb_root p; pb_comps := pb_comps p ++ [c] |}
  end.
Definition pbuf_components (p : pbuf) : list comp :=
  (if pb_root p then [RootDir] else []) ++ pb_comps p.

(** paths/src/lib.rs:281-295, one iteration of the loop of normalize_path *)
Definition normalize_step (ret : pbuf) (c : comp) : pbuf :=
  match c with
  | RootDir => pbuf_push ret RootDir
  | CurDir => ret
  | ParentDir => pbuf_pop ret
  | Normal s => pbuf_push ret (Normal s)
  end.
(** paths/src/lib.rs:272-297 [normalize_path] on [path.components()] *)
Definition normalize_path (path : list comp) : list comp :=
  pbuf_components (fold_left normalize_step path {| pb_root := false; pb_comps := [] |}).

(** ** Virtual paths *)

(** str::rfind('/') and truncation to it: vfs_path.rs:335-342 [VirtualPath::pop] *)
Fixpoint virt_pop (s : text) : option text :=
  match s with
  | [] => None
  | c :: r => match virt_pop r with
              | Some r' => Some (c :: r')
              | None => if c =? cSlash then Some [] else None
              end
  end.

(** str::trim_start_matches("./") *)
Fixpoint trim_dot_slash (s : text) : text :=
  match s with
  | a :: b :: r => if (a =? cDot) && (b =? cSlash) then trim_dot_slash r else s
  | _ => s
  end.

(** vfs_path.rs:354-365 [VirtualPath::join] *)
Fixpoint virt_join (base path : text) : option text :=
  match path with
  | a :: b :: c :: r =>
      if (a =? cDot) && (b =? cDot) && (c =? cSlash)
      then match virt_pop base with
           | Some base' => virt_join base' r
           | None => None
           end
      else Some (base ++ cSlash :: trim_dot_slash path)
  | _ => Some (base ++ cSlash :: trim_dot_slash path)
  end.

(** vfs_path.rs:315-317 [VirtualPath::starts_with], textual *)
Definition virt_starts_with (s p : text) : bool := starts_with s p.

(** vfs_path.rs:378-398 [VirtualPath::name_and_extension] *)
Fixpoint rsplit_at (sep : char) (s : text) : option (text * text) :=
  (* split at the last occurrence of [sep] *)
  match s with
  | [] => None
  | c :: r => match rsplit_at sep r with
              | Some (a, b) => Some (c :: a, b)
              | None => if c =? sep then Some ([], r) else None
              end
  end.
Definition virt_name_and_extension (s : text) : option (text * option text) :=
  let file_path := match rev s with
                   | c :: r => if c =? cSlash then rev r else s
                   | [] => s
                   end in
  let file_name := match rsplit_at cSlash file_path with Some (_, n) => n | None => file_path end in
  match file_name with
  | [] => None
  | _ => match rsplit_at cDot file_name with
         | None => Some (file_name, None)              (* no '.': stem is None *)
         | Some ([], _) => Some (file_name, None)      (* only a leading '.' *)
         | Some (stem, ext) => Some (stem, Some ext)
         end
  end.

(** ** VfsPath *)

(** Components of a relative or absolute string (std::path::Components): empty
    and '.' segments are skipped (a leading '.' of a relative path yields
    CurDir, which normalisation drops). *)
Fixpoint split_slash (s : text) : list text :=
  match s with
  | [] => [[]]
  | c :: r => if c =? cSlash then [] :: split_slash r
              else match split_slash r with l :: ls => (c :: l) :: ls | [] => [[c]] end
  end.
Definition comp_of (s : text) : list comp :=
  match s with
  | [] => []
  | [a] => if a =? cDot then [] else [Normal s]
  | [a; b] => if (a =? cDot) && (b =? cDot) then [ParentDir] else [Normal s]
  | _ => [Normal s]
  end.
Definition components (s : text) : list comp :=
  (match s with c :: _ => if c =? cSlash then [RootDir] else [] | [] => [] end)
  ++ flat_map comp_of (split_slash s).
Definition comp_text (c : comp) : list text :=
  match c with
  | Normal s => [s]
  | ParentDir => [[cDot; cDot]]
  | _ => []
  end.
(** components of an absolute path stored in a VfsPath *)
Definition comp_parse (s : text) : comp :=
  match s with
  | [a; b] => if (a =? cDot) && (b =? cDot) then ParentDir else Normal s
  | _ => Normal s
  end.

(** vfs_path.rs:37-48 [VfsPath::join]; AbsPath::join (paths/src/lib.rs:177-179)
    appends, or replaces when the argument is absolute. *)
Definition vpath_join (p : vpath) (path : text) : option vpath :=
  match p with
  | Real cs =>
      let all := RootDir :: map comp_parse cs ++ components path in
      Some (Real (flat_map comp_text (normalize_path all)))
  | Virtual s => option_map Virtual (virt_join s path)
  end.

(** vfs_path.rs:65-70 [VfsPath::pop]: new value and success flag *)
Definition vpath_pop (p : vpath) : vpath * bool :=
  match p with
  | Real [] => (p, false)
  | Real cs => (Real (removelast cs), true)
  | Virtual s => match virt_pop s with Some s' => (Virtual s', true) | None => (p, false) end
  end.
(** vfs_path.rs:85-92 [VfsPath::parent] *)
Definition vpath_parent (p : vpath) : option vpath :=
  let '(q, ok) := vpath_pop p in if ok then Some q else None.

Fixpoint texts_prefix (p s : list text) : bool :=
  match p, s with
  | [], _ => true
  | x :: p', y :: s' => text_eqb x y && texts_prefix p' s'
  | _ :: _, [] => false
  end.
(** vfs_path.rs:73-80 [VfsPath::starts_with] (std Path::starts_with is by
    components) *)
Definition vpath_starts_with (s p : vpath) : bool :=
  match s, p with
  | Real a, Real b => texts_prefix b a
  | Virtual a, Virtual b => virt_starts_with a b
  | _, _ => false
  end.

(** The canonical string of a real path. *)
Definition real_str (cs : list text) : text :=
  match cs with [] => [cSlash] | _ => flat_map (fun c => cSlash :: c) cs end.
(** vfs_path.rs:113-161 [VfsPath::encode], Unix: tag byte then the path bytes.
    Simplification: the stored string is taken to be the canonical one (no
    doubled or trailing slash). *)
Definition vpath_encode (p : vpath) : bytes :=
  match p with
  | Real cs => 0 :: encode (real_str cs)
  | Virtual s => 1 :: encode s
  end.
