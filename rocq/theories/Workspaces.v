(** Model of the life of the VS Code extension: editors/code/src/extension.ts,
    components/ws.ts, and the parts of dove.ts, client.ts, tasks.ts and util.ts they
    use.

    Everything runs in one thread that changes hands at awaits.  A label is an
    event of the editor, or the answer one pending asynchronous call gets; what
    follows runs to the next awaits (microtasks included).  Any list of labels is
    thus a schedule. *)
From Coq Require Import String.
From Verif Require Import Base.
Open Scope nat_scope.

(** What is used of [vscode.TextDocument] and [Uri]: the workspace folder of the
    URI (by its path; the code compares the folder objects), scheme, file-system
    path and language *)
Record doc := Doc { d_folder : option text; d_scheme : text; d_path : text; d_language : text }.

(** JavaScript: [String.prototype.endsWith] *)
Definition path_ends_with (t s : text) : bool := starts_with (rev t) (rev s).
Definition is_dove_toml (d : doc) : bool := path_ends_with (d_path d) (`"Dove.toml").
(** util.ts:62-71 *)
Definition is_move_document (d : doc) : bool :=
  text_eqb (d_scheme d) (`"file") && (text_eqb (d_language d) (`"move") || is_dove_toml d).

(** dove.ts:8-43: the parts of the metadata that are used, and client.ts:14-19 *)
Record metadata := Metadata { m_local : list text; m_git : list (list text); m_modules : text; m_dialect : text; m_address : text }.
Record options := Options { o_dialect : text; o_folders : list text; o_address : text }.
(** dove.ts:45-61 [getServerInitOptsFromMetadata]; [stdlib_folder] is always null *)
Definition init_options (m : metadata) : options :=
  Options (m_dialect m) (m_local m ++ concat (m_git m) ++ [m_modules m]) (m_address m).

(** dove.ts:68-95: the output of [dove metadata] is no JSON ([JSON.parse] throws),
    empty (or null), or the metadata *)
Inductive answer := BadJson | NoMetadata (errors : text) | IsMetadata (m : metadata).

(** ws.ts:16-32: [doveExecutable] and [languageServerExecutable] (they are set
    together), the keys of [workspaces], [activeWorkspace].  A workspace is known by
    its factory and folder. *)
Record factory := Factory { f_execs : option (text * text); f_spaces : list text; f_active : option text }.

(** What [context.subscriptions] holds; the number is that of the activation *)
Inductive sub :=
| SFactory (g : nat) | SEditor (g : nat) | SSaveInit (g : nat)      (* extension.ts:31-44 *)
| SCommand (g : nat)                                                 (* extension.ts:51-67 *)
| SSettings (g : nat) | SCreate (g : nat) | SDelete (g : nat) | SSaveCheck (g : nat).   (* extension.ts:89-109 *)

(** The awaits *)
Inductive phase :=
| WStat (d : doc) (f : text)                     (* ws.ts:40 *)
| WBoot (d : doc) (f : text)                     (* ws.ts:46 *)
| WMeta (f server dove : text)                   (* ws.ts:68 *)
| WStart (f server dove : text)                  (* ws.ts:102 *)
| WCheckBoot (f : text) (rest : list doc)        (* extension.ts:76 *)
| WCheckMeta (f : text) (rest : list doc)        (* extension.ts:79 *)
| WOver.                                         (* returned or threw *)
(** An asynchronous call: of which activation, whether it is awaited by
    [tryActivate] *)
Record task := Task { t_gen : nat; t_activates : bool; t_phase : phase }.

(** A language client: ws.ts:106-114, client.ts:21-57 *)
Record client := Client { c_gen : nat; c_folder : text; c_alive : bool }.

Record state := State { gens : list factory; subs : list sub; tasks : list task; clients : list client }.
Definition init_state : state := State [] [] [] [].

Inductive output :=
| OActivate                                                   (* an activation begins *)
| OActivated                                                  (* ... and ends well *)
| OActivationFailed                                           (* extension.ts:15-18 *)
| OReloaded                                                   (* extension.ts:54 *)
| OStart (f server dove : text) (o : options)                 (* a server is started, with a task provider *)
| OStop (n : nat)                                             (* the [n]th server started is stopped *)
| OInvalid (errors : text).                                   (* "Dove.toml is invalid" *)

Inductive label :=
| LActivate (active : option doc)                             (* VS Code activates the extension, once *)
| LEditor (d : option doc)                                    (* onDidChangeActiveTextEditor *)
| LSave (d : doc)                                             (* onDidSaveTextDocument *)
| LFiles (deleted : bool) (l : list doc)                      (* onDidCreateFiles, onDidDeleteFiles *)
| LSettings (affects : bool) (active : option doc)            (* onDidChangeConfiguration *)
| LReload (active : option doc)                               (* the user runs move.reload *)
| LStat (t : nat) (exists_ : bool)
| LBoot (t : nat) (execs : option (text * text))              (* bootstrap threw, or (dove, language server) *)
| LMeta (t : nat) (a : answer) (active : option doc).

Fixpoint update {A} (n : nat) (x : A) (l : list A) : list A :=
  match l, n with
  | [], _ => []
  | _ :: r, 0 => x :: r
  | y :: r, S n => y :: update n x r
  end.
Definition set_gen (g : nat) (x : factory) (st : state) : state := State (update g x (gens st)) (subs st) (tasks st) (clients st).
Definition set_task (t : nat) (x : task) (st : state) : state := State (gens st) (subs st) (update t x (tasks st)) (clients st).
Definition add_task (x : task) (st : state) : state := State (gens st) (subs st) (tasks st ++ [x]) (clients st).

Definition mem (f : text) (l : list text) : bool := existsb (text_eqb f) l.
Definition is_command (s : sub) : bool := match s with SCommand _ => true | _ => false end.
Definition has_command (st : state) : bool := existsb is_command (subs st).

(** extension.ts:47-110: [initClientWorkspace] returned; the rest of [tryActivate].
    VS Code refuses a command that exists already. *)
Definition complete (g : nat) (st : state) : state * list output :=
  if has_command st then (st, [OActivationFailed]) else
  (State (gens st) (subs st ++ [SCommand g; SSettings g; SCreate g; SDelete g; SSaveCheck g]) (tasks st) (clients st), [OActivated]).
(** [initClientWorkspace] is over, with or without an exception *)
Definition finish (g : nat) (activates ok : bool) (st : state) : state * list output :=
  if activates then if ok then complete g st else (st, [OActivationFailed]) else (st, []).
Definition over (t : nat) (k : task) (ok : bool) (st : state) : state * list output :=
  finish (t_gen k) (t_activates k) ok (set_task t (Task (t_gen k) (t_activates k) WOver) st).

(** ws.ts:34-40, up to the first await *)
Definition begin_init (g : nat) (activates : bool) (d : option doc) (st : state) : state * list output :=
  match d with
  | None => finish g activates true st
  | Some d =>
      match d_folder d with
      | None => finish g activates true st
      | Some f => (add_task (Task g activates (WStat d f)) st, [])
      end
  end.
(** ws.ts:57-79, from there to the next await *)
Definition enter (t : nat) (k : task) (d : doc) (f : text) (execs : text * text) (st : state) : state * list output :=
  match nth_error (gens st) (t_gen k) with
  | None => (st, [])
  | Some fa =>
      if mem f (f_spaces fa)
      then over t k true (set_gen (t_gen k) (Factory (f_execs fa) (f_spaces fa) (Some f)) st)
      else if is_move_document d
      then (set_task t (Task (t_gen k) (t_activates k) (WMeta f (snd execs) (fst execs)))
              (set_gen (t_gen k) (Factory (f_execs fa) (f_spaces fa ++ [f]) (f_active fa)) st), [])
      else over t k true st
  end.

(** ws.ts:81-84 and 117-125: every workspace of the factory stops the clients it
    has; stopping is taken to work *)
Definition stops (g : nat) (spaces : list text) (c : client) : bool :=
  Nat.eqb (c_gen c) g && mem (c_folder c) spaces.
Fixpoint stopped_ids (g : nat) (spaces : list text) (n : nat) (l : list client) : list output :=
  match l with
  | [] => []
  | c :: r => (if stops g spaces c && c_alive c then [OStop n] else []) ++ stopped_ids g spaces (S n) r
  end.
Definition dispose (s : sub) (st : state) : state * list output :=
  match s with
  | SFactory g =>
      match nth_error (gens st) g with
      | None => (st, [])
      | Some fa =>
          (State (gens st) (subs st) (tasks st)
             (map (fun c => if stops g (f_spaces fa) c then Client (c_gen c) (c_folder c) false else c) (clients st)),
           stopped_ids g (f_spaces fa) 0 (clients st))
      end
  | _ => (st, [])
  end.
Fixpoint dispose_all (l : list sub) (st : state) : state * list output :=
  match l with
  | [] => (st, [])
  | s :: r => let (st, o) := dispose s st in let (st, o') := dispose_all r st in (st, o ++ o')
  end.

(** extension.ts:24-47 *)
Definition activate (active : option doc) (st : state) : state * list output :=
  let g := length (gens st) in
  let st := State (gens st ++ [Factory None [] None]) (subs st ++ [SFactory g; SEditor g; SSaveInit g]) (tasks st) (clients st) in
  let (st, o) := begin_init g true active st in (st, OActivate :: o).
(** extension.ts:52-66; [executeCommand] of a command that is not there is refused *)
Definition reload (active : option doc) (st : state) : state * list output :=
  if has_command st then
    let (st1, o) := dispose_all (rev (subs st)) (State (gens st) [] (tasks st) (clients st)) in
    let (st2, o') := activate active st1 in (st2, OReloaded :: o ++ o')
  else (st, []).

(** extension.ts:69-76, up to the await, for the first of the files that gets there *)
Fixpoint begin_check (files : list doc) : phase :=
  match files with
  | [] => WOver
  | d :: r => match is_dove_toml d, d_folder d with true, Some f => WCheckBoot f r | _, _ => begin_check r end
  end.

(** What a listener does with an event *)
Definition deliver (l : label) (s : sub) (st : state) : state * list output :=
  match l, s with
  | LEditor d, SEditor g => begin_init g false d st
  | LSave d, SSaveInit g => if is_dove_toml d then begin_init g false (Some d) st else (st, [])
  | LSave d, SSaveCheck g => (add_task (Task g false (begin_check [d])) st, [])
  | LFiles false files, SCreate g | LFiles true files, SDelete g => (add_task (Task g false (begin_check files)) st, [])
  | LSettings true active, SSettings g => reload active st
  | _, _ => (st, [])
  end.
Fixpoint deliver_all (l : label) (ss : list sub) (st : state) : state * list output :=
  match ss with
  | [] => (st, [])
  | s :: r => let (st, o) := deliver l s st in let (st, o') := deliver_all l r st in (st, o ++ o')
  end.

Definition step (st : state) (l : label) : option (state * list output) :=
  match l with
  | LActivate active => match gens st with [] => Some (activate active st) | _ => None end
  | LEditor _ | LSave _ | LFiles _ _ | LSettings _ _ => Some (deliver_all l (subs st) st)
  | LReload active => Some (reload active st)
  | LStat t b =>
      match nth_error (tasks st) t with
      | Some (Task g a (WStat d f)) =>
          if b then
            match option_map f_execs (nth_error (gens st) g) with
            | Some (Some execs) => Some (enter t (Task g a (WStat d f)) d f execs st)
            | _ => Some (set_task t (Task g a (WBoot d f)) st, [])
            end
          else Some (over t (Task g a (WStat d f)) true st)
      | _ => None
      end
  | LBoot t r =>
      match nth_error (tasks st) t with
      | Some (Task g a (WBoot d f)) =>
          match r, nth_error (gens st) g with
          | Some execs, Some fa =>
              Some (enter t (Task g a (WBoot d f)) d f execs (set_gen g (Factory (Some execs) (f_spaces fa) (f_active fa)) st))
          | Some _, None => None
          | None, _ => Some (over t (Task g a (WBoot d f)) false st)
          end
      | Some (Task g a (WCheckBoot f rest)) =>
          match r with
          | Some _ => Some (set_task t (Task g a (WCheckMeta f rest)) st, [])
          | None => Some (set_task t (Task g a WOver) st, [])
          end
      | _ => None
      end
  | LMeta t r active =>
      match nth_error (tasks st) t with
      | Some (Task g a (WMeta f server dove)) =>                     (* ws.ts:69: a pair is never falsy *)
          match r with
          | BadJson => Some (over t (Task g a (WMeta f server dove)) false st)
          | _ => Some (set_task t (Task g a (WStart f server dove)) st, [])
          end
      | Some (Task g a (WStart f server dove)) =>
          let k := Task g a (WStart f server dove) in
          let active_set st := match nth_error (gens st) g with
                               | Some fa => set_gen g (Factory (f_execs fa) (f_spaces fa) (Some f)) st
                               | None => st
                               end in
          match r with
          | BadJson => Some (over t k false st)
          | NoMetadata errors =>
              let (st, o) := over t k true (active_set st) in Some (st, OInvalid errors :: o)
          | IsMetadata m =>
              let (st, o) := over t k true (active_set st) in
              Some (State (gens st) (subs st) (tasks st) (clients st ++ [Client g f true]), OStart f server dove (init_options m) :: o)
          end
      | Some (Task g a (WCheckMeta f rest)) =>
          let next st := set_task t (Task g a (begin_check rest)) st in
          match r with
          | BadJson => Some (set_task t (Task g a WOver) st, [])
          | NoMetadata errors => Some (next st, [OInvalid errors])
          | IsMetadata _ => Some (reload active (next st))
          end
      | _ => None
      end
  end.

(** A run: the state after the labels, and what each of them showed *)
Fixpoint run (st : state) (ls : list label) : option (state * list (list output)) :=
  match ls with
  | [] => Some (st, [])
  | l :: r =>
      match step st l with
      | None => None
      | Some (st, o) => match run st r with Some (st, os) => Some (st, o :: os) | None => None end
      end
  end.
