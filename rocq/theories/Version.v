(** The version a server reports: the build script of the server, and when cargo
    runs it again.  The version is sent with the answer to [initialize]
    (bin/move_language_server.rs:84) and logged at the start (line 52). *)
From Coq Require Import String.
From Verif Require Import Base Utf8 Lexer Tags.
Local Open Scope N_scope.

(** ** The script *)
(** std::process::Command::output: the program cannot be started, or it has ended
    with success or not and has written something *)
Inductive outcome := NotStarted | Exited (success : bool) (stdout : bytes).
(** core: str::split_ascii_whitespace *)
Definition ascii_blank (c : char) : bool := (c =? 9) || (c =? 10) || (c =? 12) || (c =? 13) || (c =? 32).
Fixpoint words_from (w : text) (t : text) : list text :=
  let last := match w with [] => [] | _ => [rev w] end in
  match t with
  | [] => last
  | c :: r => if ascii_blank c then last ++ words_from [] r else words_from (c :: w) r
  end.
Definition words (t : text) : list text := words_from [] t.
(** move_language_server/build.rs:62-74 [exec].  The commands given to it are
    constants that are not empty, so args[0] exists. *)
Definition exec (run : list text -> outcome) (command : text) : option text :=
  match run (words command) with
  | NotStarted => None
  | Exited success out => if success then option_map trim (decode out) else None
  end.
(** build.rs:54-56 [commit_hash] *)
Definition commit_hash run : option text := exec run (`"git rev-parse --short HEAD").
(** build.rs:58-60 [build_date] *)
Definition build_date run : option text := exec run (`"date -u +%Y-%m-%d").
Definition REV_VAR : text := `"MOVE_LANGUAGE_SERVER_REV".
Definition CHANNEL_VAR : text := `"MOVE_LANGUAGE_SERVER_CHANNEL".
(** build.rs:30-52 [rev]; [env] is std::env::var, [None] if the variable is not
    set or is not Unicode *)
Definition revision (env : text -> option text) (run : list text -> outcome) : text :=
  match env REV_VAR with
  | Some r => r
  | None =>
      match commit_hash run with
      | Some hash =>
          let buf := match build_date run with Some date => hash ++ [32] ++ date | None => hash end in
          let channel := match env CHANNEL_VAR with Some c => c | None => `"dev" end in
          buf ++ [32] ++ channel
      | None => `"???????"
      end
  end.

(** a directory: its names, the innermost first; [] is the root *)
Notation dir := (list text) (only parsing).
(** what the script prints for cargo (each one a line of its own; a value is
    taken to have no line break in it) *)
Inductive directive :=
| RerunIfEnvChanged (var : text)
| RerunIfHeadChanged (d : dir)  (* rerun-if-changed=<d>/.git/HEAD *)
| Warning
| RustcEnv (var value : text).
(** build.rs:10-28 [set_rerun]: a directory without a parent is not looked at *)
Fixpoint head_ref (exists_ : dir -> bool) (d : dir) : option dir :=
  match d with
  | [] => None
  | _ :: up => if exists_ d then Some d else head_ref exists_ up
  end.
Definition set_rerun (exists_ : dir -> bool) (manifest_dir : dir) : list directive :=
  RerunIfEnvChanged REV_VAR ::
  match head_ref exists_ manifest_dir with Some d => [RerunIfHeadChanged d] | None => [Warning] end.

(** what the script can see: the variables, what programs do, and for each
    directory when .git/HEAD there was written last *)
Record world := World { w_env : text -> option text; w_run : list text -> outcome; w_heads : dir -> option nat }.
(** build.rs:5-8 [main] *)
Definition script (manifest_dir : dir) (w : world) : list directive :=
  set_rerun (fun d => match w_heads w d with Some _ => true | None => false end) manifest_dir
  ++ [RustcEnv (`"REV") (revision (w_env w) (w_run w))].

(** ** Cargo: the output of the last run is kept, with what it said should be
    watched; the script is run again if one of these things has changed *)
Record kept := Kept { k_world : world; k_out : list directive }.
Definition opt_eqb {A} (eqb : A -> A -> bool) (x y : option A) : bool :=
  match x, y with Some x, Some y => eqb x y | None, None => true | _, _ => false end.
Definition changed (w w' : world) (d : directive) : bool :=
  match d with
  | RerunIfEnvChanged v => negb (opt_eqb text_eqb (w_env w v) (w_env w' v))
  | RerunIfHeadChanged p => negb (opt_eqb Nat.eqb (w_heads w p) (w_heads w' p))
  | _ => false
  end.
Definition build (manifest_dir : dir) (w : world) (k : option kept) : kept :=
  match k with
  | Some k => if existsb (changed (k_world k) w) (k_out k) then Kept w (script manifest_dir w) else k
  | None => Kept w (script manifest_dir w)
  end.
(** env!("REV") *)
Fixpoint rev_of (out : list directive) : option text :=
  match out with
  | [] => None
  | RustcEnv v x :: r => if text_eqb v (`"REV") then Some x else rev_of r
  | _ :: r => rev_of r
  end.

(** ** A working copy and its history *)
(** what .git/HEAD says: a branch, or a commit; a commit is its abbreviated hash *)
Inductive head := Branch (b : text) | Detached (c : text).
Record state := St { s_head : head; s_writes : nat; s_tips : list (text * text); s_env : list (text * option text); s_date : text; s_kept : option kept }.
Inductive event :=
| Commit (c : text)            (* git commit *)
| Switch (b : text)            (* git switch b *)
| Detach (c : text)            (* git switch --detach c *)
| SetVar (v : text) (x : option text)
| Day (d : text)
| Build.                       (* cargo build *)
Fixpoint lookup {A} (k : text) (l : list (text * A)) : option A :=
  match l with [] => None | (k', x) :: r => if text_eqb k k' then Some x else lookup k r end.
Definition current (s : state) : option text :=
  match s_head s with Detached c => Some c | Branch b => lookup b (s_tips s) end.
Definition variable (s : state) (v : text) : option text :=
  match lookup v (s_env s) with Some x => x | None => None end.
Fixpoint texts_eqb (a b : list text) : bool :=
  match a, b with
  | [], [] => true
  | x :: a, y :: b => text_eqb x y && texts_eqb a b
  | _, _ => false
  end.
(** what git and date print *)
Definition programs (s : state) (args : list text) : outcome :=
  if texts_eqb args [`"git"; `"rev-parse"; `"--short"; `"HEAD"] then
    match current s with Some c => Exited true (encode (c ++ [10])) | None => Exited false [] end
  else if texts_eqb args [`"date"; `"-u"; `"+%Y-%m-%d"] then Exited true (encode (s_date s ++ [10]))
  else NotStarted.
Definition world_of (top : dir) (s : state) : world :=
  World (variable s) (programs s) (fun d => if texts_eqb d top then Some (s_writes s) else None).
(** [top] is the directory of the working copy, [manifest] the one of the server
    in it.  A commit on a branch writes the file of the branch; everything else
    that moves HEAD writes .git/HEAD. *)
Definition step (manifest top : dir) (s : state) (e : event) : state :=
  match e with
  | Commit c =>
      match s_head s with
      | Branch b => St (s_head s) (s_writes s) ((b, c) :: s_tips s) (s_env s) (s_date s) (s_kept s)
      | Detached _ => St (Detached c) (S (s_writes s)) (s_tips s) (s_env s) (s_date s) (s_kept s)
      end
  | Switch b => St (Branch b) (S (s_writes s)) (s_tips s) (s_env s) (s_date s) (s_kept s)
  | Detach c => St (Detached c) (S (s_writes s)) (s_tips s) (s_env s) (s_date s) (s_kept s)
  | SetVar v x => St (s_head s) (s_writes s) (s_tips s) ((v, x) :: s_env s) (s_date s) (s_kept s)
  | Day d => St (s_head s) (s_writes s) (s_tips s) (s_env s) d (s_kept s)
  | Build => St (s_head s) (s_writes s) (s_tips s) (s_env s) (s_date s) (Some (build manifest (world_of top s) (s_kept s)))
  end.
Definition run (manifest top : dir) (s : state) (es : list event) : state := fold_left (step manifest top) es s.
(** the version in the binary built last *)
Definition version (s : state) : option text := match s_kept s with Some k => rev_of (k_out k) | None => None end.
