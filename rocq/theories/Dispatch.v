(** Model of the request and notification dispatchers with an arbitrary table
    of handlers: crates/move_language_server/src/dispatch.rs, with the parts of
    global_state.rs, main_loop.rs, thread_pool.rs and lib.rs they use.

    Server.v models the table the program has today (one handler, [shutdown]);
    here the handlers are parameters: functions that may return a value, fail
    in any way, or panic.  [D] is the part of the global state that handlers
    see; the queue of requests is kept apart from it, because no handler gets
    at it (simplification: the type of [on_sync_mut] would allow it).

    A JSON value is given by its text.  Not modelled: panic contexts (they only
    add to the log), failure to serialise a result ([Response::new_ok] unwraps;
    the result types of LSP serialise), and time. *)
From Coq Require Import String.
From Verif Require Import Base Server.
Local Open Scope N_scope.

(** serde_json::Value, by its text *)
Definition value := text.

(** ** Outcomes of handlers *)
(** lib.rs:37-41 [LspError]; base_db [Cancelled]; any other [Box<dyn Error>],
    by what its [to_string] gives *)
Inductive failure := FLsp (code : Z) (message : text) | FCancelled | FOther (message : text).
(** the payload of a panic: a [String] or [&str], or something else *)
Inductive payload := PText (message : text) | POpaque.
(** [thread::Result<Result<R::Result>>] *)
Inductive outcome := Returned (v : value) | Failed (e : failure) | Panicked (p : payload).

(** lsp_server::Response *)
Inductive answer := AOk (v : value) | AErr (code : Z) (message : text).
Record response := { rs_id : request_id; rs_answer : answer }.
(** lsp_server::ErrorCode, those not in Server.v *)
Definition InternalError : Z := (-32603)%Z.
Definition ContentModified : Z := (-32801)%Z.

(** dispatch.rs:180-210 [result_to_response] and 153-178
    [thread_result_to_response], together: a panic is turned into the answer
    of lines 164-176 *)
Definition outcome_answer (o : outcome) : answer :=
  match o with
  | Returned v => AOk v
  | Failed (FLsp code m) => AErr code m
  | Failed FCancelled => AErr ContentModified (`"content modified")
  | Failed (FOther m) => AErr InternalError m
  | Panicked (PText m) => AErr InternalError (`"server panicked" ++ `": " ++ m)
  | Panicked POpaque => AErr InternalError (`"server panicked")
  end.

(** ** Requests *)
Record call := { cl_id : request_id; cl_method : text; cl_params : value }.

(** dispatch.rs:34-110: the three ways to register a handler.  A handler run
    on the pool works on a snapshot and may be cancelled by a later change: the
    number says when, and the handler decides what comes of it. *)
Inductive handler (D P : Type) :=
| OnSyncMut (f : D -> P -> D * outcome)
| OnSync (f : D -> P -> outcome)
| OnPool (f : D -> P -> nat -> outcome).
Arguments OnSyncMut {D P}. Arguments OnSync {D P}. Arguments OnPool {D P}.

(** one registration: [R::METHOD], [R::Params], how the parameters are decoded
    (or serde's error message), and the handler *)
Record route (D : Type) := {
  rt_method : text;
  rt_params : Type;
  rt_decode : value -> rt_params + text;
  rt_handler : handler D rt_params
}.
Arguments rt_method {D}. Arguments rt_params {D}. Arguments rt_decode {D}. Arguments rt_handler {D}.

(** ** State *)
(** a closure submitted to the pool: the id of its request, and what it will
    come to (dispatch.rs:97-108) *)
Record pending := { pd_id : request_id; pd_run : nat -> outcome }.
Record gstate (D : Type) := {
  g_data : D;                                   (* everything else *)
  g_incoming : list (request_id * text);        (* req_queue.incoming *)
  g_pool : list pending;                        (* submitted, not finished *)
  g_done : list response                        (* Task::Response sent, not received *)
}.
Arguments g_data {D}. Arguments g_incoming {D}. Arguments g_pool {D}. Arguments g_done {D}.
Definition set_data {D} (s : gstate D) (d : D) : gstate D := {| g_data := d; g_incoming := g_incoming s; g_pool := g_pool s; g_done := g_done s |}.
Definition set_incoming {D} (s : gstate D) x : gstate D := {| g_data := g_data s; g_incoming := x; g_pool := g_pool s; g_done := g_done s |}.
Definition set_pool {D} (s : gstate D) p q : gstate D := {| g_data := g_data s; g_incoming := g_incoming s; g_pool := p; g_done := q |}.

(** global_state.rs:182-190 [register_request] *)
Definition g_register {D} (s : gstate D) (c : call) : gstate D :=
  set_incoming s (ainsert id_eqb (cl_id c) (cl_method c) (g_incoming s)).
(** global_state.rs:191-195 [respond] *)
Definition g_respond {D} (s : gstate D) (r : response) : gstate D * list response :=
  match alookup id_eqb (rs_id r) (g_incoming s) with
  | Some _ => (set_incoming s (aremove id_eqb (rs_id r) (g_incoming s)), [r])
  | None => (s, [])
  end.
(** global_state.rs:196-200 [cancel]; lsp_server::Incoming::cancel *)
Definition g_cancel {D} (s : gstate D) (id : request_id) : gstate D * list response :=
  match alookup id_eqb id (g_incoming s) with
  | Some _ => (set_incoming s (aremove id_eqb id (g_incoming s)),
               [{| rs_id := id; rs_answer := AErr RequestCanceled (`"canceled by client") |}])
  | None => (s, [])
  end.

(** ** The dispatcher: dispatch.rs:25-28; its request is [None] once taken *)
Definition visitor (D : Type) : Type := option call * gstate D * list response.

(** lib.rs:28-32 [from_json]: the message of a failure *)
Definition from_json_error (method err json : text) : text :=
  `"Failed to deserialize " ++ method ++ `": " ++ err ++ `"; " ++ json.
(** dispatch.rs:124-150 [parse] *)
Definition visit_parse {D} (v : visitor D) (rt : route D) : visitor D * option (request_id * rt_params rt) :=
  let '(req, s, out) := v in
  match req with
  | Some c =>
      if text_eqb (cl_method c) (rt_method rt) then
        match rt_decode rt (cl_params c) with
        | inl p => ((None, s, out), Some (cl_id c, p))
        | inr err =>
            let '(s, o) := g_respond s {| rs_id := cl_id c; rs_answer := AErr InvalidParams (from_json_error (rt_method rt) err (cl_params c)) |} in
            ((None, s, out ++ o), None)
        end
      else (v, None)
  | None => (v, None)
  end.

(** dispatch.rs:34-54 [on_sync_mut] (a panic of [f] is not caught), 57-79
    [on_sync], 82-110 [on] *)
Definition visit {D} (rt : route D) (v : visitor D) : res (visitor D) :=
  let '(v, parsed) := visit_parse v rt in
  match parsed with
  | None => Ok v
  | Some (id, p) =>
      let '(req, s, out) := v in
      match rt_handler rt with
      | OnSyncMut f =>
          let '(d, o) := f (g_data s) p in
          match o with
          | Panicked _ => Panic PUnreachable
          | _ => let '(s, o) := g_respond (set_data s d) {| rs_id := id; rs_answer := outcome_answer o |} in
                 Ok (req, s, out ++ o)
          end
      | OnSync f =>
          let '(s, o) := g_respond s {| rs_id := id; rs_answer := outcome_answer (f (g_data s) p) |} in
          Ok (req, s, out ++ o)
      | OnPool f =>
          Ok (req, set_pool s (g_pool s ++ [{| pd_id := id; pd_run := f (g_data s) p |}]) (g_done s), out)
      end
  end.
Fixpoint visit_all {D} (rts : list (route D)) (v : visitor D) : res (visitor D) :=
  match rts with
  | [] => Ok v
  | rt :: rest => let! v := visit rt v in visit_all rest v
  end.
(** dispatch.rs:112-122 [finish] *)
Definition visit_finish {D} (v : visitor D) : gstate D * list response :=
  let '(req, s, out) := v in
  match req with
  | Some c => let '(s, o) := g_respond s {| rs_id := cl_id c; rs_answer := AErr MethodNotFound (`"unknown request") |} in (s, out ++ o)
  | None => (s, out)
  end.

(** main_loop.rs:218-238 [on_request], with the table [rts]; [down] reads the
    flag [shutdown_requested] *)
Definition g_request {D} (down : D -> bool) (rts : list (route D)) (s : gstate D) (c : call) : res (gstate D * list response) :=
  let s := g_register s c in
  if down (g_data s) then Ok (g_respond s {| rs_id := cl_id c; rs_answer := AErr InvalidRequest (`"Shutdown already requested.") |})
  else let! v := visit_all rts (Some c, s, []) in Ok (visit_finish v).

(** ** Events *)
(** A request or a cancellation arrives; a worker finishes the job number [k]
    (main loop and workers run concurrently: dispatch.rs:97-108,
    thread_pool.rs:18-27; the channel keeps the order in which they finish); the
    main loop takes the next result (main_loop.rs:149-166); anything else that
    happens changes the data only. *)
Inductive event (D : Type) :=
| ERequest (c : call)
| ECancel (id : request_id)
| EFinish (k : nat) (cut : nat)
| EReceive
| EOther (f : D -> D).
Arguments ERequest {D}. Arguments ECancel {D}. Arguments EFinish {D}. Arguments EReceive {D}. Arguments EOther {D}.

Definition g_step {D} (down : D -> bool) (rts : list (route D)) (s : gstate D) (e : event D) : res (gstate D * list response) :=
  match e with
  | ERequest c => g_request down rts s c
  | ECancel id => Ok (g_cancel s id)
  | EFinish k cut =>
      match nth_error (g_pool s) k with
      | Some j => Ok (set_pool s (firstn k (g_pool s) ++ skipn (S k) (g_pool s))
                               (g_done s ++ [{| rs_id := pd_id j; rs_answer := outcome_answer (pd_run j cut) |}]), [])
      | None => Ok (s, [])
      end
  | EReceive =>
      match g_done s with
      | r :: rest => Ok (g_respond (set_pool s (g_pool s) rest) r)
      | [] => Ok (s, [])
      end
  | EOther f => Ok (set_data s (f (g_data s)), [])
  end.
Fixpoint g_run {D} (down : D -> bool) (rts : list (route D)) (s : gstate D) (es : list (event D)) : res (gstate D * list response) :=
  match es with
  | [] => Ok (s, [])
  | e :: rest =>
      let! (s, o) := g_step down rts s e in
      let! (s, o') := g_run down rts s rest in
      Ok (s, o ++ o')
  end.
Definition g_start {D} (d : D) : gstate D := {| g_data := d; g_incoming := []; g_pool := []; g_done := [] |}.

(** ** Notifications: dispatch.rs:212-244 *)
(** lsp_server::Notification *)
Record notice := { nt_method : text; nt_params : value }.
(** one registration; the handler changes the state or fails *)
Record listener (D : Type) := {
  ls_method : text;
  ls_params : Type;
  ls_decode : value -> option ls_params;
  ls_handler : D -> ls_params -> res (D + failure)
}.
Arguments ls_method {D}. Arguments ls_params {D}. Arguments ls_decode {D}. Arguments ls_handler {D}.
(** lsp_server::Notification::extract: other methods are given back, parameters
    that do not deserialise panic *)
Inductive ended (D : Type) :=
| Handled (d : D)              (* the state after the handler *)
| Unhandled (d : D) (log : bool)  (* no handler; whether an error is logged *)
| Aborted (e : failure).       (* [?]: the main loop ends with this error *)
Arguments Handled {D}. Arguments Unhandled {D}. Arguments Aborted {D}.
(** the visitor: what is left of the notification, the state *)
Definition notify {D} (l : listener D) (n : option notice) (d : D) : res (option notice * D + failure) :=
  match n with
  | None => Ok (inl (None, d))
  | Some n =>
      if text_eqb (nt_method n) (ls_method l) then
        match ls_decode l (nt_params n) with
        | None => Panic PUnreachable
        | Some p => let! r := ls_handler l d p in
                    match r with inl d => Ok (inl (None, d)) | inr e => Ok (inr e) end
        end
      else Ok (inl (Some n, d))
  end.
Fixpoint notify_all {D} (ls : list (listener D)) (n : option notice) (d : D) : res (option notice * D + failure) :=
  match ls with
  | [] => Ok (inl (n, d))
  | l :: rest =>
      let! r := notify l n d in
      match r with inl (n, d) => notify_all rest n d | inr e => Ok (inr e) end
  end.
(** dispatch.rs:237-243 [finish] *)
Definition g_notification {D} (ls : list (listener D)) (n : notice) (d : D) : res (ended D) :=
  let! r := notify_all ls (Some n) d in
  match r with
  | inr e => Ok (Aborted e)
  | inl (None, d) => Ok (Handled d)
  | inl (Some n, d) => Ok (Unhandled d (negb (starts_with (nt_method n) (`"$/"))))
  end.
