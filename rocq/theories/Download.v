(** Model of how the VS Code extension gets the dove executable:
    editors/code/src/components/bootstrap.ts, net.ts and the parts of util.ts
    and persistent_state.ts they use.

    Every call of [getBinaryPathEnsureExists] is a job; jobs of one window and of
    several windows run interleaved, because each [await] gives up control.  A
    job is at one of its awaits; a label says which job goes on and what it was
    given (by the network, the file system, the user), so that a list of labels
    is a schedule.  A label that does not fit the state of its job is refused. *)
From Coq Require Import String.
From Verif Require Import Base.
Open Scope N_scope.

(** net.ts:58-62: the part of [GithubRelease.assets] that is used *)
Record asset := Asset { a_name : text; a_url : text }.

(** JavaScript: [String.prototype.includes] *)
Fixpoint includes (t p : text) : bool :=
  starts_with t p || match t with [] => false | _ :: r => includes r p end.
(** JavaScript: [String.prototype.slice('~'.length)] *)
Definition drop1 (t : text) : text := match t with [] => [] | _ :: r => r end.

(** bootstrap.ts:12-17 [getPlatformLabel] *)
Definition platform_label (platform : text) : option text :=
  if text_eqb platform (`"win32") then Some (`"win")
  else if text_eqb platform (`"linux") then Some (`"linux")
  else if text_eqb platform (`"darwin") then Some (`"darwin")
  else None.

(** Node: [path.parse(p).name] of a file name: up to the last dot, unless the
    name has no other dot than a first one or is '..' *)
Fixpoint last_dot (t : text) : option (text * text) :=
  match t with
  | [] => None
  | c :: r => match last_dot r with
              | Some (a, b) => Some (c :: a, b)
              | None => if c =? 46 then Some ([], t) else None
              end
  end.
Definition path_name (t : text) : text :=
  if text_eqb t [46; 46] then t else
  match last_dot t with
  | Some ([], _) | None => t
  | Some (a, _) => a
  end.
(** net.ts:79-80: the temporary file, next to the destination *)
Definition temp_name (a : asset) (hex : text) : text := path_name (a_name a) ++ hex.

(** What a job is started with: the setting read at bootstrap.ts:95 (the empty
    text stands for no setting), [os.homedir()], [process.platform], and the
    name of the binary *)
Record config := Config { c_setting : text; c_home : text; c_platform : text; c_binary : text }.

(** A path that was found: the user's, or a file of the extension's storage *)
Inductive location := AtPath (p : text) | InStorage (name : text).

(** What [downloadWithRetryDialog] is asked to do: bootstrap.ts:111-113 and 128-135 *)
Inductive stage := SRelease | SBinary (a : asset).

(** The awaits of a job *)
Inductive phase :=
| PRelease                                  (* net.ts:30: the release is asked for *)
| PStat (a : asset)                         (* bootstrap.ts:124: is the file there? *)
| PFetch (a : asset) (temp : text)          (* net.ts:120 *)
| PBody (a : asset) (temp : text)           (* net.ts:144: [pipeline] *)
| PRename (a : asset) (temp : text)         (* net.ts:110 *)
| PDialog (st : stage)                      (* net.ts:170: retry? *)
| PBox (st : stage)                         (* net.ts:209: the token? *)
| PFound (l : location)                     (* [getBinaryPathEnsureExists] returned *)
| PReady (l : location)                     (* bootstrap.ts:85 *)
| PFailed                                   (* an exception *)
| PKilled.                                  (* the window is gone *)
Record job := Job { j_config : config; j_phase : phase }.

(** The files of the extension's storage by name, the stored token, the jobs *)
Record world := World { files : amap (K := text) (V := list N); token : option text; jobs : list job }.

(** What can be seen of a step: requests to the network (with the token sent), and dialogs *)
Inductive output :=
| OApi (tok : option text)                  (* net.ts:16-30 *)
| OGet (url : text)                         (* net.ts:120 *)
| ORetryDialog
| OTokenBox (value : option text).          (* net.ts:198-209 *)

Inductive choice := UpdateToken | Retry | Dismiss.     (* closing the dialog is [Dismiss] *)
Inductive release_answer := NoRelease | ReleaseIs (assets : option (list asset)).  (* [None]: the JSON is null *)
(** [content-length]: missing, not a number, or a number *)
Inductive body_answer := NoBody | BodyFollows (len : option (option N)).

Inductive label :=
| LStart (c : config)
| LRelease (i : nat) (r : release_answer)
| LStat (i : nat) (fault : bool) (hex : text)
| LResponse (i : nat) (r : body_answer)
| LChunk (i : nat) (bytes : list N)
| LEnd (i : nat)
| LStreamFails (i : nat)
| LRename (i : nat) (ok : bool)
| LChoose (i : nat) (c : choice) (hex : text)
| LInput (i : nat) (t : option text) (hex : text)
| LCheck (i : nat) (valid : bool)           (* util.ts:77-87 [isValidExecutable] *)
| LKill (i : nat)                           (* the window is closed or crashes *)
| LDelete (name : text).                    (* somebody removes a file *)

Definition file_exists (w : world) (name : text) : bool :=
  match alookup text_eqb name (files w) with Some _ => true | None => false end.
(** A write stream adds what it gets to its file; nothing is seen of writes to a
    file that was removed.  (Two streams on one file would overwrite each other;
    the theorems ask for different names.) *)
Definition append_file (name : text) (bytes : list N) (m : amap (K := text) (V := list N)) :=
  match alookup text_eqb name m with
  | Some old => ainsert text_eqb name (old ++ bytes) m
  | None => m
  end.

Definition set_phase (i : nat) (p : phase) (js : list job) : list job :=
  match nth_error js i with
  | Some j => firstn i js ++ Job (j_config j) p :: skipn (S i) js
  | None => js
  end.
Definition goes (w : world) (i : nat) (p : phase) : world := World (files w) (token w) (set_phase i p (jobs w)).

(** bootstrap.ts:116-119 *)
Definition find_asset (binary lbl : text) (assets : list asset) : option asset :=
  find (fun a => starts_with (a_name a) binary && includes (a_name a) lbl) assets.

(** net.ts:167-168: [downloadFunc()] is called *)
Definition attempt (w : world) (i : nat) (st : stage) (hex : text) : world * list output :=
  match st with
  | SRelease => (goes w i PRelease, [OApi (token w)])
  | SBinary a => (goes w i (PFetch a (temp_name a hex)), [OGet (a_url a)])
  end.
(** net.ts:169-184: [downloadFunc()] threw *)
Definition threw (w : world) (i : nat) (st : stage) : world * list output :=
  (goes w i (PDialog st), [ORetryDialog]).

(** bootstrap.ts:88-113, up to the first await (that of the error message for an
    unknown platform is left out) *)
Definition start (w : world) (c : config) : world * list output :=
  let add p := World (files w) (token w) (jobs w ++ [Job c p]) in
  match c_setting c with
  | _ :: _ =>
      let p := if starts_with (c_setting c) [126; 47] then c_home c ++ drop1 (c_setting c) else c_setting c in
      (add (PFound (AtPath p)), [])
  | [] =>
      match platform_label (c_platform c) with
      | None => (add PFailed, [])
      | Some _ => (add PRelease, [OApi (token w)])
      end
  end.

Definition step (w : world) (l : label) : option (world * list output) :=
  let phase_of i := option_map j_phase (nth_error (jobs w) i) in
  match l with
  | LStart c => Some (start w c)
  | LRelease i r =>
      match nth_error (jobs w) i with
      | Some (Job c PRelease) =>
          match r with
          | NoRelease => Some (threw w i SRelease)
          | ReleaseIs None => Some (goes w i PFailed, [])                       (* bootstrap.ts:114 *)
          | ReleaseIs (Some assets) =>
              match platform_label (c_platform c) with
              | None => None
              | Some lbl =>
                  match find_asset (c_binary c) lbl assets with
                  | None => Some (goes w i PFailed, [])                         (* bootstrap.ts:120 *)
                  | Some a => Some (goes w i (PStat a), [])
                  end
              end
          end
      | _ => None
      end
  | LStat i fault hex =>                                                        (* bootstrap.ts:124-126, util.ts:89-94 *)
      match phase_of i with
      | Some (PStat a) =>
          if negb fault && file_exists w (a_name a)
          then Some (goes w i (PFound (InStorage (a_name a))), [])
          else Some (attempt w i (SBinary a) hex)
      | _ => None
      end
  | LResponse i r =>                                                            (* net.ts:120-140 *)
      match phase_of i with
      | Some (PFetch a temp) =>
          match r with
          | NoBody | BodyFollows (Some None) => Some (threw w i (SBinary a))
          | BodyFollows _ =>
              Some (World (ainsert text_eqb temp [] (files w)) (token w) (set_phase i (PBody a temp) (jobs w)), [])
          end
      | _ => None
      end
  | LChunk i bytes =>
      match phase_of i with
      | Some (PBody a temp) => Some (World (append_file temp bytes (files w)) (token w) (jobs w), [])
      | _ => None
      end
  | LEnd i =>
      match phase_of i with
      | Some (PBody a temp) => Some (goes w i (PRename a temp), [])
      | _ => None
      end
  | LStreamFails i =>
      match phase_of i with
      | Some (PBody a temp) => Some (threw w i (SBinary a))
      | _ => None
      end
  | LRename i ok =>                                                             (* net.ts:110, bootstrap.ts:137 *)
      match phase_of i with
      | Some (PRename a temp) =>
          match ok, alookup text_eqb temp (files w) with
          | true, Some bytes =>
              Some (World (ainsert text_eqb (a_name a) bytes (aremove text_eqb temp (files w))) (token w)
                          (set_phase i (PFound (InStorage (a_name a))) (jobs w)), [])
          | true, None => None
          | false, _ => Some (threw w i (SBinary a))
          end
      | _ => None
      end
  | LChoose i c hex =>                                                          (* net.ts:186-192 *)
      match phase_of i with
      | Some (PDialog st) =>
          match c with
          | UpdateToken => Some (goes w i (PBox st), [OTokenBox (token w)])
          | Retry => Some (attempt w i st hex)
          | Dismiss => Some (goes w i PFailed, [])
          end
      | _ => None
      end
  | LInput i t hex =>                                                           (* net.ts:209-221, persistent_state.ts:14-16 *)
      match phase_of i with
      | Some (PBox st) =>
          let w := match t with
                   | None => w
                   | Some [] => World (files w) None (jobs w)
                   | Some v => World (files w) (Some v) (jobs w)
                   end in
          Some (attempt w i st hex)
      | _ => None
      end
  | LCheck i valid =>                                                           (* bootstrap.ts:78-85 *)
      match phase_of i with
      | Some (PFound l) => Some (goes w i (if valid then PReady l else PFailed), [])
      | _ => None
      end
  | LKill i =>
      match phase_of i with
      | Some _ => Some (goes w i PKilled, [])
      | None => None
      end
  | LDelete name => Some (World (aremove text_eqb name (files w)) (token w) (jobs w), [])
  end.

(** A run: the state after the labels, and what each of them showed *)
Fixpoint run (w : world) (ls : list label) : option (world * list (list output)) :=
  match ls with
  | [] => Some (w, [])
  | l :: r =>
      match step w l with
      | None => None
      | Some (w, o) => match run w r with Some (w, os) => Some (w, o :: os) | None => None end
      end
  end.

(** bootstrap.ts:47-56: the language server is not looked for; [None]: it threw *)
Definition language_server_path (setting : text) : text :=
  `"/home/mkurnikov/code/move-language-server/target/debug/move_language_server".
Definition bootstrap (language_server_setting : text) (dove : phase) : option (location * location) :=
  match dove with
  | PReady l => Some (l, AtPath (language_server_path language_server_setting))
  | _ => None
  end.

(** net.ts:89-106 and 134-138: the reports of progress (percentage and
    increment) for the lengths of the chunks.  [Math.round] of the exact quotient
    (the code divides floating point numbers), for an announced length other
    than 0. *)
Definition percentage (read total : N) : N := (200 * read + total) / (2 * total).
Fixpoint reports (total last read : N) (chunks : list N) : list (N * Z) :=
  match chunks with
  | [] => []
  | n :: r =>
      let read := read + n in
      let new := percentage read total in
      if new =? last then reports total last read r
      else (new, (Z.of_N new - Z.of_N last)%Z) :: reports total new read r
  end.
