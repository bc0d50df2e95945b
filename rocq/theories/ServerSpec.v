(** Specification of what a client may expect of the server, in terms of the
    messages exchanged. *)
From Coq Require Import String.
From Verif Require Import Base Utf8 Utf8Proofs Vfs FileSet DocChanges DocChangesSpec Database Server.
Local Open Scope N_scope.

(** the client messages of a schedule, in order *)
Definition label_messages (l : label) : list message := match l with LMsg m _ => [m] | _ => [] end.
Definition messages (ls : list label) : list message := flat_map label_messages ls.

(** Strings on the wire hold Unicode scalar values. *)
Definition valid_message (m : message) : Prop :=
  match m with
  | MNotification (NDidOpen (Some p)) => scalars (op_text p)
  | MNotification (NDidChange (Some p)) => Forall (fun ch => scalars (ch_text ch)) (cp_changes p)
  | _ => True
  end.
Definition valid_labels (ls : list label) : Prop := Forall valid_message (messages ls).

(** the responses among the messages sent to the client *)
Definition responses (out : list output) : list (request_id * body) :=
  flat_map (fun o => match o with OResponse id b => [(id, b)] | _ => [] end) out.
(** the publishDiagnostics notifications for one file *)
Definition publications (comps : list text) (out : list output) : list (option Z * list Diagnostics.lsp_diag) :=
  flat_map (fun o => match o with
                     | OPublish (UFile c) v ds => if Vfs.texts_eqb c comps then [(v, ds)] else []
                     | _ => []
                     end) out.

(** A source root configuration that can be built (the shipped one is built
    from no roots); [is_local]: files at [comps] belong to a local root. *)
Definition buildable (c : root_config) : Prop :=
  exists roots, fsc_build roots = Ok (rc_fsc c) /\ N.of_nat (length roots) < u32_max.
Definition is_local (c : root_config) (comps : list text) : bool :=
  existsb (Nat.eqb (fsc_classify (rc_fsc c) (Real comps))) (rc_local c).

(** The document at [comps] is open in the server, with this version and text. *)
Definition holds (s : state) (comps : list text) (v : Z) (t : text) : Prop :=
  alookup vpath_eqb (Real comps) (s_docs s) = Some v /\
  exists id, vfs_file_id (s_vfs s) (Real comps) = Ok (Some id) /\ vfs_file_contents (s_vfs s) id = Ok (encode t).
Definition not_open (s : state) (comps : list text) : Prop := alookup vpath_eqb (Real comps) (s_docs s) = None.

(** ** The request protocol.  [down]: shutdown has been requested. *)
Definition answer (down : bool) (r : request) : body :=
  if down then BErr InvalidRequest
  else if text_eqb (rq_method r) (`"shutdown")
       then match rq_params r with JNull => BOk | JOther _ => BErr InvalidParams end
       else BErr MethodNotFound.
Definition is_shutdown (r : request) : bool :=
  text_eqb (rq_method r) (`"shutdown") && match rq_params r with JNull => true | JOther _ => false end.
Fixpoint answers (down : bool) (ms : list message) : list (request_id * body) :=
  match ms with
  | [] => []
  | MRequest r :: rest => (rq_id r, answer down r) :: answers (down || is_shutdown r) rest
  | _ :: rest => answers down rest
  end.
(** the ids of the requests, in order *)
Fixpoint request_ids (ms : list message) : list request_id :=
  match ms with
  | [] => []
  | MRequest r :: rest => rq_id r :: request_ids rest
  | _ :: rest => request_ids rest
  end.
Definition is_exit (m : message) : bool := match m with MNotification NExit => true | _ => false end.

(** ** Documents *)
(** the file a message is about *)
Definition about (comps : list text) (m : message) : Prop :=
  match m with
  | MNotification (NDidOpen (Some p)) => op_url p = UFile comps
  | MNotification (NDidChange (Some p)) => cp_url p = UFile comps
  | MNotification (NDidClose (Some u)) => u = UFile comps
  | _ => False
  end.
(** [t'] is what the batch [chs] makes of [t]: positions the client computed
    from its text, or any positions whose start line is not after their end
    line, each change read against the text left by the previous one. *)
Definition edited (t : text) (chs : list change) (t' : text) : Prop :=
  batch_size t chs < u32_bound /\
  (client_edits t chs t' \/ (Forall ordered_lines chs /\ apply_all_fresh t chs = Ok t')).

(** [follows comps d ms d']: a document with version and text [d] ([None]:
    not open) is [d'] after the client has sent [ms]. *)
Inductive follows (comps : list text) : option (Z * text) -> list message -> option (Z * text) -> Prop :=
| follows_nil d : follows comps d [] d
| follows_open d v t ms d' :
    follows comps (Some (v, t)) ms d' ->
    follows comps d (MNotification (NDidOpen (Some {| op_url := UFile comps; op_version := v; op_text := t |})) :: ms) d'
| follows_change v t v' chs t' ms d' :
    edited t chs t' -> follows comps (Some (v', t')) ms d' ->
    follows comps (Some (v, t))
      (MNotification (NDidChange (Some {| cp_url := UFile comps; cp_version := v'; cp_changes := chs |})) :: ms) d'
| follows_change_closed v' chs ms d' :
    follows comps None ms d' ->
    follows comps None
      (MNotification (NDidChange (Some {| cp_url := UFile comps; cp_version := v'; cp_changes := chs |})) :: ms) d'
| follows_close d ms d' :
    follows comps None ms d' -> follows comps d (MNotification (NDidClose (Some (UFile comps))) :: ms) d'
| follows_other d m ms d' :
    ~ about comps m -> follows comps d ms d' -> follows comps d (m :: ms) d'.

(** ** Well-behaved clients.  [docs]: the texts of the open documents;
    [pending]: the server's registration request is unanswered. *)
Definition put (docs : list text -> option text) (comps : list text) (d : option text) : list text -> option text :=
  fun c => if Vfs.texts_eqb c comps then d else docs c.
Inductive polite : (list text -> option text) -> bool -> list label -> Prop :=
| polite_nil docs pending : polite docs pending []
| polite_request docs pending r cuts ls :
    polite docs pending ls -> polite docs pending (LMsg (MRequest r) cuts :: ls)
| polite_open docs pending comps v t cuts ls :
    scalars t -> polite (put docs comps (Some t)) pending ls ->
    polite docs pending (LMsg (MNotification (NDidOpen (Some {| op_url := UFile comps; op_version := v; op_text := t |}))) cuts :: ls)
| polite_change docs pending comps v t chs t' cuts ls :
    docs comps = Some t -> Forall (fun ch => scalars (ch_text ch)) chs -> edited t chs t' ->
    polite (put docs comps (Some t')) pending ls ->
    polite docs pending (LMsg (MNotification (NDidChange (Some {| cp_url := UFile comps; cp_version := v; cp_changes := chs |}))) cuts :: ls)
| polite_close docs pending comps cuts ls :
    polite (put docs comps None) pending ls ->
    polite docs pending (LMsg (MNotification (NDidClose (Some (UFile comps)))) cuts :: ls)
| polite_cancel docs pending id cuts ls :
    polite docs pending ls -> polite docs pending (LMsg (MNotification (NCancel (Some id))) cuts :: ls)
| polite_progress docs pending cuts ls :
    polite docs pending ls -> polite docs pending (LMsg (MNotification (NWorkDoneProgressCancel (Some tt))) cuts :: ls)
| polite_other docs pending method cuts ls :
    polite docs pending ls -> polite docs pending (LMsg (MNotification (NOther method)) cuts :: ls)
| polite_exit docs pending cuts ls :
    polite docs pending ls -> polite docs pending (LMsg (MNotification NExit) cuts :: ls)
| polite_answer docs cuts ls :
    polite docs false ls -> polite docs true (LMsg (MResponse (IdNum 0)) cuts :: ls)
| polite_schedule docs pending l ls :
    label_messages l = [] -> polite docs pending ls -> polite docs pending (l :: ls).

(** ** Schedules of the background work *)
(** Results are delivered in the order the jobs were submitted. *)
Definition in_order (l : label) : Prop :=
  match l with
  | LTasks picks => Forall (fun i => i = 0%nat) picks
  | LWorker i => i = 0%nat
  | _ => True
  end.
(** All work is done and all results have been received. *)
Definition settled (s : state) : Prop := s_jobs s = [] /\ s_done s = [].
(** what the client was last sent for a file *)
Definition last_published (comps : list text) (out : list output) : option (option Z * list Diagnostics.lsp_diag) :=
  last (map Some (publications comps out)) None.
