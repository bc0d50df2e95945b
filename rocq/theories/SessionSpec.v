(** What a client may expect of the process as a whole, in terms of the
    messages exchanged. *)
From Coq Require Import String.
From Verif Require Import Base LineIndex Vfs Project Server ServerSpec Session.
Local Open Scope N_scope.

(** Nothing reaches the main thread. *)
Definition silent (l : label) : Prop := match l with LTasks _ | LWorker _ => True | _ => False end.

(** [confirms ls rest]: the first message of [ls] is the notification
    "initialized"; [rest] follows. *)
Inductive confirms : list label -> list label -> Prop :=
| confirms_silent l ls rest : silent l -> confirms ls rest -> confirms (l :: ls) rest
| confirms_now cuts rest : confirms (LMsg (MNotification (NOther (`"initialized"))) cuts :: rest) rest.

(** [asked early r ls rest]: [ls] begins with the requests [early], none of
    them "initialize", then the request [r], which is; [rest] follows. *)
Inductive asked : list request -> request -> list label -> list label -> Prop :=
| asked_silent early r l ls rest : silent l -> asked early r ls rest -> asked early r (l :: ls) rest
| asked_early early r x cuts ls rest : rq_method x <> `"initialize" -> asked early r ls rest ->
    asked (x :: early) r (LMsg (MRequest x) cuts :: ls) rest
| asked_now r cuts rest : rq_method r = `"initialize" -> asked [] r (LMsg (MRequest r) cuts :: rest) rest.

(** The whole handshake. *)
Definition opened (early : list request) (r : request) (ls rest : list label) : Prop :=
  exists ls1, asked early r ls ls1 /\ confirms ls1 rest.

(** The answer to a request that comes too early. *)
Definition too_early (r : request) : reply := RMessage (OResponse (rq_id r) (BErr (-32002)%Z)).

(** ids of the requests answered, in order *)
Definition answered (out : list reply) : list request_id :=
  flat_map (fun o => match o with
                     | RInitialize id _ => [id]
                     | RMessage (OResponse id _) => [id]
                     | RMessage _ => []
                     end) out.

(** What the client lists among its encodings and registrations. *)
Definition knows_utf8 (caps : client_caps) : Prop :=
  exists l, cc_offset_encoding caps = Some l /\ In (`"utf-8") l.
Definition can_register_saves (caps : client_caps) : Prop :=
  exists s, cc_text_document caps = Some (Some s) /\ sc_did_save s = Some true /\ sc_dynamic_registration s = Some true.

(** The directory the session is about: the root URI if it is a file URL, or
    else the current directory. *)
Inductive root_is (cwd : option abs_path) (p : init_params) : abs_path -> Prop :=
| root_uri d : ip_root p = Some (DirFile d) -> root_is cwd p d
| root_cwd d : (forall d', ip_root p <> Some (DirFile d')) -> cwd = Some d -> root_is cwd p d.

(** The directories searched for projects: those of the workspace folders that
    are file URLs, or else the root. *)
Definition folder (p : init_params) (d : abs_path) : Prop :=
  exists l, ip_folders p = Some l /\ In (DirFile d) l.
Definition searched (p : init_params) (root d : abs_path) : Prop :=
  folder p d \/ (forall d', ~ folder p d') /\ d = root.
