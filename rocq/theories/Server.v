(** Model of the main loop: crates/move_language_server/src/main_loop.rs,
    global_state.rs, mem_docs.rs, dispatch.rs, reload.rs, thread_pool.rs.

    The server is a state machine.  Its inputs are client messages, worker
    threads finishing, and the main loop receiving task results; all
    nondeterminism (which event comes next, how far a cancelled job got, in
    which order results arrive) is in the list of labels.  Its outputs are the
    messages sent to the client.

    Time, logging and panic contexts are not modelled.  A message is given
    after JSON decoding: [None] for parameters that do not deserialise. *)
From Coq Require Import String Permutation.
From Verif Require Import Base Utf8 LineIndex LineEndings Vfs FileSet DocChanges Sink Database Diagnostics.
Local Open Scope N_scope.

(** ** Messages *)
(** lsp_server::RequestId *)
Inductive request_id := IdNum (n : Z) | IdStr (s : text).
Definition id_eqb (a b : request_id) : bool :=
  match a, b with IdNum x, IdNum y => (x =? y)%Z | IdStr x, IdStr y => text_eqb x y | _, _ => false end.
(** serde_json::Value: null, or anything else *)
Inductive json := JNull | JOther (raw : text).
Record request := { rq_id : request_id; rq_method : text; rq_params : json }.
(** lsp_types::Url: a file URL is identified with the absolute path it decodes
    to ([Url::to_file_path], [Url::from_file_path]; FileUrl.v models these and
    server_url in PropFileUrl.v relates the two); from_proto.rs:17-24
    [vfs_path] fails for every other URL *)
Inductive url := UFile (comps : list text) | UOther (s : text).
Definition vfs_path (u : url) : option vpath := match u with UFile c => Some (Real c) | UOther _ => None end.

Record open_params := { op_url : url; op_version : Z; op_text : text }.
Record change_params := { cp_url : url; cp_version : Z; cp_changes : list change }.
Inductive notification :=
| NExit
| NCancel (p : option request_id)
| NWorkDoneProgressCancel (p : option unit)
| NDidOpen (p : option open_params)
| NDidChange (p : option change_params)
| NDidClose (p : option url)
| NOther (method : text).
Inductive message := MRequest (r : request) | MNotification (n : notification) | MResponse (id : request_id).

(** lsp_server::Response: success, or an error code (texts are not modelled) *)
Inductive body := BOk | BErr (code : Z).
Definition InvalidParams : Z := (-32602)%Z.
Definition MethodNotFound : Z := (-32601)%Z.
Definition InvalidRequest : Z := (-32600)%Z.
Definition RequestCanceled : Z := (-32800)%Z.
Inductive output :=
| OResponse (id : request_id) (b : body)
| ORequest (id : Z) (method : text)
| OPublish (u : url) (version : option Z) (ds : list lsp_diag).

(** ** Background jobs *)
(** main_loop.rs:314-316: a snapshot of the database and the subscribed files *)
Record job := { jb_db : database; jb_files : list N }.
(** main_loop.rs:78-81 [Task] *)
Inductive task := TResponse (id : request_id) (b : body) | TDiagnostics (l : list (N * list lsp_diag)).

(** ** State: global_state.rs:43-62 [GlobalState] *)
Record state := {
  s_incoming : list (request_id * text);        (* req_queue.incoming *)
  s_outgoing : list (request_id * text);        (* req_queue.outgoing.pending *)
  s_next_id : Z;                                (* req_queue.outgoing.next_id *)
  s_db : database;                              (* analysis_host *)
  s_diags : collection;                         (* diagnostics *)
  s_docs : list (vpath * Z);                    (* mem_docs: path -> version *)
  s_docs_changed : bool;                        (* mem_docs.added_or_removed *)
  s_shutdown : bool;                            (* shutdown_requested *)
  s_status : option bool;                       (* last_reported_status: its [quiescent] *)
  s_roots : root_config;                        (* source_root_config *)
  s_vfs : vfs;                                  (* vfs.0 *)
  s_endings : list (N * endings);               (* vfs.1 *)
  s_progress : N * N * N * N;                   (* vfs_config_version, vfs_progress_{config_version,n_total,n_done} *)
  s_jobs : list job;                            (* submitted to the pool, not finished *)
  s_done : list task                            (* finished, not yet received by the main loop *)
}.

(** record updates *)
Definition with_incoming s x := {| s_incoming := x; s_outgoing := s_outgoing s; s_next_id := s_next_id s; s_db := s_db s; s_diags := s_diags s; s_docs := s_docs s; s_docs_changed := s_docs_changed s; s_shutdown := s_shutdown s; s_status := s_status s; s_roots := s_roots s; s_vfs := s_vfs s; s_endings := s_endings s; s_progress := s_progress s; s_jobs := s_jobs s; s_done := s_done s |}.
Definition with_outgoing s x n := {| s_incoming := s_incoming s; s_outgoing := x; s_next_id := n; s_db := s_db s; s_diags := s_diags s; s_docs := s_docs s; s_docs_changed := s_docs_changed s; s_shutdown := s_shutdown s; s_status := s_status s; s_roots := s_roots s; s_vfs := s_vfs s; s_endings := s_endings s; s_progress := s_progress s; s_jobs := s_jobs s; s_done := s_done s |}.
Definition with_db s x := {| s_incoming := s_incoming s; s_outgoing := s_outgoing s; s_next_id := s_next_id s; s_db := x; s_diags := s_diags s; s_docs := s_docs s; s_docs_changed := s_docs_changed s; s_shutdown := s_shutdown s; s_status := s_status s; s_roots := s_roots s; s_vfs := s_vfs s; s_endings := s_endings s; s_progress := s_progress s; s_jobs := s_jobs s; s_done := s_done s |}.
Definition with_diags s x := {| s_incoming := s_incoming s; s_outgoing := s_outgoing s; s_next_id := s_next_id s; s_db := s_db s; s_diags := x; s_docs := s_docs s; s_docs_changed := s_docs_changed s; s_shutdown := s_shutdown s; s_status := s_status s; s_roots := s_roots s; s_vfs := s_vfs s; s_endings := s_endings s; s_progress := s_progress s; s_jobs := s_jobs s; s_done := s_done s |}.
Definition with_docs s x ch := {| s_incoming := s_incoming s; s_outgoing := s_outgoing s; s_next_id := s_next_id s; s_db := s_db s; s_diags := s_diags s; s_docs := x; s_docs_changed := ch; s_shutdown := s_shutdown s; s_status := s_status s; s_roots := s_roots s; s_vfs := s_vfs s; s_endings := s_endings s; s_progress := s_progress s; s_jobs := s_jobs s; s_done := s_done s |}.
Definition with_shutdown s x := {| s_incoming := s_incoming s; s_outgoing := s_outgoing s; s_next_id := s_next_id s; s_db := s_db s; s_diags := s_diags s; s_docs := s_docs s; s_docs_changed := s_docs_changed s; s_shutdown := x; s_status := s_status s; s_roots := s_roots s; s_vfs := s_vfs s; s_endings := s_endings s; s_progress := s_progress s; s_jobs := s_jobs s; s_done := s_done s |}.
Definition with_status s x := {| s_incoming := s_incoming s; s_outgoing := s_outgoing s; s_next_id := s_next_id s; s_db := s_db s; s_diags := s_diags s; s_docs := s_docs s; s_docs_changed := s_docs_changed s; s_shutdown := s_shutdown s; s_status := x; s_roots := s_roots s; s_vfs := s_vfs s; s_endings := s_endings s; s_progress := s_progress s; s_jobs := s_jobs s; s_done := s_done s |}.
Definition with_vfs s x := {| s_incoming := s_incoming s; s_outgoing := s_outgoing s; s_next_id := s_next_id s; s_db := s_db s; s_diags := s_diags s; s_docs := s_docs s; s_docs_changed := s_docs_changed s; s_shutdown := s_shutdown s; s_status := s_status s; s_roots := s_roots s; s_vfs := x; s_endings := s_endings s; s_progress := s_progress s; s_jobs := s_jobs s; s_done := s_done s |}.
Definition with_endings s x := {| s_incoming := s_incoming s; s_outgoing := s_outgoing s; s_next_id := s_next_id s; s_db := s_db s; s_diags := s_diags s; s_docs := s_docs s; s_docs_changed := s_docs_changed s; s_shutdown := s_shutdown s; s_status := s_status s; s_roots := s_roots s; s_vfs := s_vfs s; s_endings := x; s_progress := s_progress s; s_jobs := s_jobs s; s_done := s_done s |}.
Definition with_tasks s j d := {| s_incoming := s_incoming s; s_outgoing := s_outgoing s; s_next_id := s_next_id s; s_db := s_db s; s_diags := s_diags s; s_docs := s_docs s; s_docs_changed := s_docs_changed s; s_shutdown := s_shutdown s; s_status := s_status s; s_roots := s_roots s; s_vfs := s_vfs s; s_endings := s_endings s; s_progress := s_progress s; s_jobs := j; s_done := d |}.

(** global_state.rs:74-103 [GlobalState::new]; the source root configuration
    is a parameter so that other configurations can be studied; the program
    uses [root_config_default] and never changes it *)
Definition state_new (roots : root_config) : state :=
  {| s_incoming := []; s_outgoing := []; s_next_id := 0%Z; s_db := db_new; s_diags := collection_default;
     s_docs := []; s_docs_changed := false; s_shutdown := false; s_status := None; s_roots := roots;
     s_vfs := vfs_default; s_endings := []; s_progress := (0, 0, 0, 0); s_jobs := []; s_done := [] |}.

(** ** Requests and responses *)
(** global_state.rs:161-168 [send_request]; lsp_server::Outgoing::register *)
Definition send_request (s : state) (method : text) : state * list output :=
  (with_outgoing s (ainsert id_eqb (IdNum (s_next_id s)) method (s_outgoing s)) (s_next_id s + 1)%Z,
   [ORequest (s_next_id s) method]).
(** global_state.rs:169-172 [complete_request]; lsp_server::Outgoing::complete
    unwraps; the only handler ever registered ignores its response
    (main_loop.rs:110) *)
Definition complete_request (s : state) (id : request_id) : res state :=
  let! _ := unwrap (alookup id_eqb id (s_outgoing s)) in
  Ok (with_outgoing s (aremove id_eqb id (s_outgoing s)) (s_next_id s)).
(** global_state.rs:182-190 [register_request] *)
Definition register_request (s : state) (r : request) : state :=
  with_incoming s (ainsert id_eqb (rq_id r) (rq_method r) (s_incoming s)).
(** global_state.rs:191-195 [respond] *)
Definition respond (s : state) (id : request_id) (b : body) : state * list output :=
  match alookup id_eqb id (s_incoming s) with
  | Some _ => (with_incoming s (aremove id_eqb id (s_incoming s)), [OResponse id b])
  | None => (s, [])
  end.
(** global_state.rs:196-200 [cancel]; lsp_server::Incoming::cancel *)
Definition cancel (s : state) (id : request_id) : state * list output :=
  match alookup id_eqb id (s_incoming s) with
  | Some _ => (with_incoming s (aremove id_eqb id (s_incoming s)), [OResponse id (BErr RequestCanceled)])
  | None => (s, [])
  end.

(** ** Dispatch of requests: dispatch.rs *)
(** dispatch.rs:25-28 [RequestDispatcher]: the request if not yet handled *)
Definition dispatcher : Type := option request * state * list output.
(** dispatch.rs:124-150 [parse]; the parameters of every request in use are
    [()], which only null deserialises to *)
Definition dispatch_parse (d : dispatcher) (method : text) : dispatcher * option request_id :=
  let '(req, s, out) := d in
  match req with
  | Some r =>
      if text_eqb (rq_method r) method then
        match rq_params r with
        | JNull => ((None, s, out), Some (rq_id r))
        | JOther _ => let '(s, o) := respond s (rq_id r) (BErr InvalidParams) in ((None, s, out ++ o), None)
        end
      else (d, None)
  | None => (d, None)
  end.
(** dispatch.rs:34-54 [on_sync_mut], for handlers that return [Ok] *)
Definition on_sync_mut (d : dispatcher) (method : text) (f : state -> state) : dispatcher :=
  let '(d, parsed) := dispatch_parse d method in
  match parsed with
  | None => d
  | Some id => let '(req, s, out) := d in
               let '(s, o) := respond (f s) id BOk in (req, s, out ++ o)
  end.
(** dispatch.rs:112-122 [finish] *)
Definition dispatch_finish (d : dispatcher) : state * list output :=
  let '(req, s, out) := d in
  match req with
  | Some r => let '(s, o) := respond s (rq_id r) (BErr MethodNotFound) in (s, out ++ o)
  | None => (s, out)
  end.
(** main_loop.rs:218-238 [on_request] *)
Definition on_request (s : state) (r : request) : state * list output :=
  let s := register_request s r in
  if s_shutdown s then respond s (rq_id r) (BErr InvalidRequest)
  else dispatch_finish (on_sync_mut (Some r, s, []) (`"shutdown") (fun s => with_shutdown s true)).

(** ** Notifications: main_loop.rs:240-305 [on_notification] *)
(** dispatch.rs:219-242 [NotificationDispatcher::on]: [Notification::extract]
    panics if the parameters do not deserialise *)
Definition extract {P} (p : option P) : res P := match p with Some p => Ok p | None => Panic PUnreachable end.
(** main_loop.rs:255-269; mem_docs.rs:22-28 [insert] *)
Definition did_open (s : state) (p : open_params) : res state :=
  match vfs_path (op_url p) with
  | None => Ok s
  | Some path =>
      let s := with_docs s (ainsert vpath_eqb path (op_version p) (s_docs s)) true in
      let! (v, _) := vfs_set (s_vfs s) path (Some (encode (op_text p))) in
      Ok (with_vfs s v)
  end.
(** main_loop.rs:270-293; mem_docs.rs:39-43 [get_mut] *)
Definition did_change (s : state) (p : change_params) : res state :=
  match vfs_path (cp_url p) with
  | None => Ok s
  | Some path =>
      match alookup vpath_eqb path (s_docs s) with
      | None => Ok s
      | Some _ =>
          let s := with_docs s (ainsert vpath_eqb path (cp_version p) (s_docs s)) (s_docs_changed s) in
          let! o := vfs_file_id (s_vfs s) path in
          let! id := unwrap o in
          let! bytes := vfs_file_contents (s_vfs s) id in
          let! t := unwrap (decode bytes) in
          let! t := apply_document_changes t (cp_changes p) in
          let! (v, _) := vfs_set (s_vfs s) path (Some (encode t)) in
          Ok (with_vfs s v)
      end
  end.
(** main_loop.rs:294-301; mem_docs.rs:29-35 [remove] *)
Definition did_close (s : state) (u : url) : state :=
  match vfs_path u with
  | None => s
  | Some path => with_docs s (aremove vpath_eqb path (s_docs s)) true
  end.
Definition on_notification (s : state) (n : notification) : res (state * list output) :=
  match n with
  | NCancel p => let! id := extract p in Ok (cancel s id)
  | NWorkDoneProgressCancel p => let! _ := extract p in Ok (s, [])
  | NDidOpen p => let! p := extract p in let! s := did_open s p in Ok (s, [])
  | NDidChange p => let! p := extract p in let! s := did_change s p in Ok (s, [])
  | NDidClose p => let! u := extract p in Ok (did_close s u, [])
  | NExit | NOther _ => Ok (s, [])
  end.

(** ** Jobs *)
(** main_loop.rs:316-331, the closure of [update_diagnostics]: the files are
    done in order; once the database is about to change every query is
    cancelled, so only the first [cut] files are in the result.  A panic kills
    the worker thread and nothing is sent (thread_pool.rs:18-24). *)
Fixpoint job_files (line_endings : list (N * endings)) (db : database) (files : list N) (cut : nat) : res (list (N * list lsp_diag)) :=
  match files, cut with
  | id :: rest, S cut =>
      let! ds := publish_diagnostics line_endings db id in
      let! r := job_files line_endings db rest cut in
      Ok ((id, ds) :: r)
  | _, _ => Ok []
  end.
Definition job_run (line_endings : list (N * endings)) (j : job) (cut : nat) : list task :=
  match job_files line_endings (jb_db j) (jb_files j) cut with
  | Ok l => [TDiagnostics l]
  | _ => []
  end.
(** all jobs in flight end, each cut where the schedule says (at the end if
    it says nothing) *)
Fixpoint jobs_cut (line_endings : list (N * endings)) (jobs : list job) (cuts : list nat) : list task :=
  match jobs with
  | [] => []
  | j :: rest =>
      job_run line_endings j (match cuts with c :: _ => c | [] => length (jb_files j) end)
      ++ jobs_cut line_endings rest (tl cuts)
  end.

(** ** process_changes: global_state.rs:105-151 *)
(** :119-141, one changed file *)
Definition changed_text (v : vfs) (e : list (N * endings)) (f : changed_file) : res (list (N * endings) * option text) :=
  if cf_exists f then
    let! bytes := vfs_file_contents v (cf_id f) in
    match decode bytes with
    | Some t => let! (t, le) := normalize t in Ok (ainsert N.eqb (cf_id f) le e, Some t)
    | None => Ok (e, None)
    end
  else Ok (e, None).
Fixpoint collect_changes (v : vfs) (e : list (N * endings)) (structure : bool) (files : list changed_file)
  : res (list (N * endings) * bool * list (N * option text)) :=
  match files with
  | [] => Ok (e, structure, [])
  | f :: rest =>
      let! path := vfs_file_path v (cf_id f) in
      let structure := match path with
                       | Real _ => structure || cf_created_or_deleted f
                       | Virtual _ => structure
                       end in
      let! (e, t) := changed_text v e f in
      let! (e, structure, l) := collect_changes v e structure rest in
      Ok (e, structure, (cf_id f, t) :: l)
  end.
(** [apply_change] first cancels and waits for every snapshot
    (ide_db/src/apply_change.rs:8-13, salsa's [synthetic_write]), which ends
    all jobs in flight *)
Definition process_changes (s : state) (cuts : list nat) : res (state * bool) :=
  let '(v, files) := vfs_take_changes (s_vfs s) in
  match files with
  | [] => Ok (s, false)
  | _ =>
      let s := with_vfs s v in
      let! (e, structure, texts) := collect_changes v (s_endings s) false files in
      let s := with_endings s e in
      let! roots := if structure then let! r := root_partition (s_roots s) v in Ok (Some r) else Ok None in
      let s := with_tasks s [] (s_done s ++ jobs_cut e (s_jobs s) cuts) in
      let! db := apply_change {| dc_roots := roots; dc_files := texts |} (s_db s) in
      Ok (with_db s db, true)
  end.

(** ** The rest of a loop turn *)
(** reload.rs:19-22 [is_quiescent] *)
Definition is_quiescent (s : state) : bool :=
  let '(config, pconfig, total, done) := s_progress s in negb ((pconfig <? config) || (done <? total)).

(** The order in which a hash map or set is iterated is some function of its
    contents. *)
Record hash_order := {
  ord : forall A : Type, list A -> list A;
  ord_perm : forall A l, Permutation (ord A l) l
}.

Section Loop.
  Context (ho : hash_order).

  (** main_loop.rs:307-334 [update_diagnostics] *)
  Definition update_diagnostics (s : state) : res state :=
    let! files := map_res (fun p => let! o := vfs_file_id (s_vfs s) p in unwrap o) (ord ho _ (map fst (s_docs s))) in
    Ok (with_tasks s (s_jobs s ++ [{| jb_db := s_db s; jb_files := files |}]) (s_done s)).

  (** main_loop.rs:179-199, publishing the files of one change set;
      global_state.rs:243-247 [file_id_to_url] *)
  Fixpoint publish (s : state) (ids : list N) : res (list output) :=
    match ids with
    | [] => Ok []
    | id :: rest =>
        let! r := file_source_root (s_db s) id in
        let! root := get_source_root (s_db s) r in
        if sr_library root then publish s rest
        else
          let! path := vfs_file_path (s_vfs s) id in
          let! comps := unwrap (match path with Real c => Some c | Virtual _ => None end) in
          let! out := publish s rest in
          Ok (OPublish (UFile comps) (alookup vpath_eqb (Real comps) (s_docs s)) (diagnostics_for (s_diags s) id) :: out)
    end.

  (** main_loop.rs:168-210, after the event itself *)
  Definition finish_turn (s : state) (was_quiescent : bool) (cuts : list nat) : res (state * list output) :=
    let! (s, state_changed) := process_changes s cuts in
    let docs_changed := s_docs_changed s in
    let s := with_docs s (s_docs s) false in              (* mem_docs.rs:47-49 [take_changes] *)
    let! s := if is_quiescent s && (negb was_quiescent || state_changed || docs_changed)
              then update_diagnostics s else Ok s in
    let '(diags, changes) := take_changes (s_diags s) in
    let s := with_diags s diags in
    let! out := match changes with
                | Some ids => publish s (ord ho _ ids)
                | None => Ok []
                end in
    (* :202-209: the health is always Ok (reload.rs:24-31), so no message *)
    Ok (with_status s (Some (is_quiescent s)), out).

  (** main_loop.rs:150-158: one task *)
  Definition handle_task (s : state) (t : task) : state * list output :=
    match t with
    | TResponse id b => respond s id b
    | TDiagnostics l => (with_diags s (fold_left (fun c p => set_native_diagnostics c (fst p) (snd p)) l (s_diags s)), [])
    end.
  (** main_loop.rs:149-166, the coalescing loop, on the tasks it received *)
  Fixpoint handle_tasks (s : state) (ts : list task) : state * list output :=
    match ts with
    | [] => (s, [])
    | t :: rest => let '(s, o) := handle_task s t in let '(s, o') := handle_tasks s rest in (s, o ++ o')
    end.

  (** ** Schedules *)
  Inductive label :=
  | LMsg (m : message) (cuts : list nat)   (* the main loop handles a client message *)
  | LTasks (picks : list nat)              (* the main loop receives these finished tasks *)
  | LWorker (i : nat)                      (* the i-th job in flight runs to its end *)
  | LHangup.                               (* the connection is closed *)

  Fixpoint remove_nth {A} (i : nat) (l : list A) : option (A * list A) :=
    match l, i with
    | [], _ => None
    | x :: r, O => Some (x, r)
    | x :: r, S i => match remove_nth i r with Some (y, r) => Some (y, x :: r) | None => None end
    end.
  (** Results of different threads arrive in any order; an impossible choice
      is skipped. *)
  Fixpoint pick_tasks (picks : list nat) (bag : list task) : list task * list task :=
    match picks with
    | [] => ([], bag)
    | i :: rest =>
        match remove_nth i bag with
        | Some (t, bag) => let '(ts, bag) := pick_tasks rest bag in (t :: ts, bag)
        | None => pick_tasks rest bag
        end
    end.

  (** main_loop.rs:137-216 [handle_event] *)
  Definition handle_message (s : state) (m : message) (cuts : list nat) : res (state * list output) :=
    let was_quiescent := is_quiescent s in
    let! (s, out) := match m with
                     | MRequest r => Ok (on_request s r)
                     | MNotification n => on_notification s n
                     | MResponse id => let! s := complete_request s id in Ok (s, [])
                     end in
    let! (s, out') := finish_turn s was_quiescent cuts in
    Ok (s, out ++ out').
  Definition handle_received (s : state) (ts : list task) : res (state * list output) :=
    let was_quiescent := is_quiescent s in
    let '(s, out) := handle_tasks s ts in
    let! (s, out') := finish_turn s was_quiescent [] in
    Ok (s, out ++ out').

  (** main_loop.rs:117-124: what a label does *)
  Inductive stepped :=
  | Continue (s : state) (out : list output)
  | Exits                       (* [run] returns Ok(()) *)
  | Fails                       (* [run] returns Err("client exited ...") *)
  | Dies (w : why)              (* the main thread panics *)
  | OutOfFuel.
  Definition of_res (r : res (state * list output)) : stepped :=
    match r with Ok (s, out) => Continue s out | Panic w => Dies w | Fuel => OutOfFuel end.
  Definition step (s : state) (l : label) : stepped :=
    match l with
    | LMsg (MNotification NExit) _ => Exits
    | LMsg m cuts => of_res (handle_message s m cuts)
    | LTasks picks =>
        let '(ts, bag) := pick_tasks picks (s_done s) in
        match ts with
        | [] => Continue s []
        | _ => of_res (handle_received (with_tasks s (s_jobs s) bag) ts)
        end
    | LWorker i =>
        match remove_nth i (s_jobs s) with
        | Some (j, rest) => Continue (with_tasks s rest (s_done s ++ job_run (s_endings s) j (length (jb_files j)))) []
        | None => Continue s []
        end
    | LHangup => Fails
    end.

  (** a run: the outputs so far and how it ended; labels after the end are
      not looked at *)
  Inductive ending := Alive (s : state) | Exited | Failed | Died (w : why) | NoFuel.
  Fixpoint run (s : state) (ls : list label) : list output * ending :=
    match ls with
    | [] => ([], Alive s)
    | l :: rest =>
        match step s l with
        | Continue s out => let '(out', e) := run s rest in (out ++ out', e)
        | Exits => ([], Exited)
        | Fails => ([], Failed)
        | Dies w => ([], Died w)
        | OutOfFuel => ([], NoFuel)
        end
    end.

  (** main_loop.rs:84-115: the start of [run]; [did_save] is
      [did_save_text_document_dynamic_registration] (config.rs:59-63).
      [fetch_workspaces] starts a job that sends nothing. *)
  Definition start (roots : root_config) (did_save : bool) : state * list output :=
    let s := state_new roots in
    if did_save then send_request s (`"client/registerCapability") else (s, []).
  Definition serve (roots : root_config) (did_save : bool) (ls : list label) : list output * ending :=
    let '(s, out) := start roots did_save in
    let '(out', e) := run s ls in (out ++ out', e).
End Loop.
