(** Model of the whole process: crates/move_language_server/src/bin/move_language_server.rs
    (the handshake), config.rs, caps.rs, lsp_ext.rs [supports_utf8], and the
    handshake of lsp-server 0.5.2.

    A session is a list of labels, as in Server.v: before the main loop there
    are no workers, so only messages and the end of the connection count.
    Logging and the io threads are not modelled. *)
From Coq Require Import String.
From Verif Require Import Base LineIndex Vfs Database Project Server.
Local Open Scope N_scope.

(** ** Messages *)
(** lsp_types: the part of [ClientCapabilities] the server reads *)
Record sync_caps := { sc_dynamic_registration : option bool; sc_did_save : option bool }.
Record client_caps := {
  cc_offset_encoding : option (list text);             (* offset_encoding *)
  cc_text_document : option (option sync_caps);        (* text_document.synchronization *)
  cc_workspace : option (option (option bool))         (* workspace.did_change_watched_files.dynamic_registration *)
}.
(** lsp_types::Url, naming a directory.  A file URL is identified with the
    absolute path [Url::to_file_path] gives; unlike the path of a document it
    is not normalised (move_language_server.rs:61-71, 90-101), so that ".." can
    occur in it (an escaped slash is decoded after the URL is parsed). *)
Inductive dir_url := DirFile (p : abs_path) | DirOther (s : text).
(** lsp_types::InitializeParams, likewise *)
Record init_params := {
  ip_root : option dir_url;                            (* root_uri *)
  ip_folders : option (list dir_url);                  (* workspace_folders *)
  ip_caps : client_caps                                (* capabilities *)
}.
(** lsp_types::TextDocumentSyncKind *)
Inductive sync_kind := SyncNone | SyncFull | SyncIncremental.
(** lsp_types::InitializeResult: the fields that are set (the version is that
    of the build); everything else is its default, that is, absent *)
Record init_result := {
  ir_open_close : option bool;
  ir_change : option sync_kind;
  ir_name : text;
  ir_offset_encoding : option text
}.
Inductive reply :=
| RInitialize (id : request_id) (r : init_result)      (* the answer to initialize *)
| RMessage (o : output).                               (* anything else *)
(** lsp_server::ErrorCode *)
Definition ServerNotInitialized : Z := (-32002)%Z.

(** ** Configuration: config.rs *)
(** config.rs:11-18 [Config]; detached_files is always empty *)
Record config := {
  cf_caps : client_caps;
  cf_projects : option (list manifest);                (* discovered_projects *)
  cf_root : abs_path                                   (* root_path *)
}.
(** config.rs:43-45 [Config::new] *)
Definition config_new (root : abs_path) (caps : client_caps) : config :=
  {| cf_caps := caps; cf_projects := None; cf_root := root |}.
(** config.rs:47-55 [linked_projects] *)
Definition linked_projects (c : config) : list manifest := match cf_projects c with Some l => l | None => [] end.
(** config.rs:61-65 [did_save_text_document_dynamic_registration] *)
Definition is_true (b : option bool) : bool := match b with Some true => true | _ => false end.
Definition did_save_registration (c : config) : bool :=
  let caps := match cc_text_document (cf_caps c) with
              | Some (Some s) => s
              | _ => {| sc_dynamic_registration := None; sc_did_save := None |}
              end in
  is_true (sc_did_save caps) && is_true (sc_dynamic_registration caps).
(** config.rs:67-72 [did_change_watched_files_dynamic_registration] *)
Definition watched_files_registration (c : config) : bool :=
  match cc_workspace (cf_caps c) with Some (Some (Some b)) => b | _ => false end.
(** lsp_ext.rs:455-457 [supports_utf8] *)
Definition supports_utf8 (caps : client_caps) : bool :=
  existsb (fun it => text_eqb it (`"utf-8")) (match cc_offset_encoding caps with Some l => l | None => [] end).
(** config.rs:74-80 [offset_encoding] *)
Definition offset_encoding (c : config) : encoding := if supports_utf8 (cf_caps c) then Utf8 else Utf16.

(** caps.rs:5-14 [server_capabilities]; move_language_server.rs:75-82 *)
Definition initialize_result (c : config) : init_result :=
  {| ir_open_close := Some true; ir_change := Some SyncFull; ir_name := `"move-language-server";
     ir_offset_encoding := if supports_utf8 (cf_caps c) then Some (`"utf-8") else None |}.

(** ** The handshake: lsp_server::Connection *)
Definition is_initialize (r : request) : bool := text_eqb (rq_method r) (`"initialize").
Definition is_initialized (n : notification) : bool :=
  match n with NOther m => text_eqb m (`"initialized") | _ => false end.

Inductive waited (A : Type) := Waiting | Broken | Got (x : A) (rest : list label).
Arguments Waiting {A}. Arguments Broken {A}. Arguments Got {A} _ _.

(** [initialize_start]: requests other than initialize are refused, any other
    message is an error, and so is a closed connection *)
Fixpoint initialize_start (ls : list label) : list reply * waited request :=
  match ls with
  | [] => ([], Waiting)
  | LMsg (MRequest r) _ :: rest =>
      if is_initialize r then ([], Got r rest)
      else let '(out, w) := initialize_start rest in
           (RMessage (OResponse (rq_id r) (BErr ServerNotInitialized)) :: out, w)
  | LMsg _ _ :: _ => ([], Broken)
  | LHangup :: _ => ([], Broken)
  | LTasks _ :: rest => initialize_start rest
  | LWorker _ :: rest => initialize_start rest
  end.
(** [initialize_finish], after the answer has been sent *)
Fixpoint initialize_finish (ls : list label) : waited unit :=
  match ls with
  | [] => Waiting
  | LMsg (MNotification n) _ :: rest => if is_initialized n then Got tt rest else Broken
  | LMsg _ _ :: _ => Broken
  | LHangup :: _ => Broken
  | LTasks _ :: rest => initialize_finish rest
  | LWorker _ :: rest => initialize_finish rest
  end.

(** ** run_server: move_language_server.rs:50-120 *)
(** [Url::to_file_path], [AbsPathBuf::try_from] *)
Definition url_path (u : dir_url) : option abs_path :=
  match u with DirFile p => Some p | DirOther _ => None end.

Inductive outcome :=
| Handshake                           (* waiting for a message of the handshake *)
| Running (c : config) (s : state)    (* in the main loop *)
| Ended (status : N)                  (* the exit status of the process *)
| RanOutOfFuel.

Section Process.
  Context (ho : hash_order).
  (** [from_json] on the parameters of initialize *)
  Context (decode_params : json -> option init_params).
  (** [env::current_dir] *)
  Context (cwd : option abs_path).
  Context (fs : filesystem) (order : list manifest -> list manifest).

  (** :61-71 *)
  Definition root_path (p : init_params) : option abs_path :=
    match (match ip_root p with Some u => url_path u | None => None end) with
    | Some it => Some it
    | None => cwd
    end.
  (** :90-101 *)
  Definition workspace_roots (c : config) (p : init_params) : list abs_path :=
    let folders := match ip_folders p with
                   | Some l => flat_map (fun u => match url_path u with Some x => [x] | None => [] end) l
                   | None => []
                   end in
    match folders with [] => [cf_root c] | _ => folders end.

  (** what [main] makes of the end of the main loop: :11-17; a panic of the
      main thread also ends the process with status 101 *)
  Definition process_end (c : config) (e : ending) : outcome :=
    match e with
    | Alive s => Running c s
    | Exited => Ended 0
    | Failed => Ended 101
    | Died _ => Ended 101
    | NoFuel => RanOutOfFuel
    end.

  Definition session (ls : list label) : list reply * outcome :=
    let '(out, w) := initialize_start ls in
    match w with
    | Waiting => (out, Handshake)
    | Broken => (out, Ended 101)
    | Got r rest =>
        match decode_params (rq_params r) with
        | None => (out, Ended 101)
        | Some p =>
            match root_path p with
            | None => (out, Ended 101)
            | Some root =>
                let c := config_new root (ip_caps p) in
                let out := out ++ [RInitialize (rq_id r) (initialize_result c)] in
                match initialize_finish rest with
                | Waiting => (out, Handshake)
                | Broken => (out, Ended 101)
                | Got _ rest =>
                    match discover_all order fs (workspace_roots c p) with
                    | Ok projects =>
                        let c := {| cf_caps := cf_caps c; cf_projects := Some projects; cf_root := cf_root c |} in
                        let '(out', e) := serve ho root_config_default (did_save_registration c) rest in
                        (out ++ map RMessage out', process_end c e)
                    | Panic _ => (out, Ended 101)
                    | Fuel => (out, RanOutOfFuel)
                    end
                end
            end
        end
    end.
End Process.
