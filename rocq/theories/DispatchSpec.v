(** What a client of a server with a given table of handlers may count on,
    stated without the dispatcher.  Only the messages, the table and the
    outcomes of handlers are taken from Dispatch.v. *)
From Coq Require Import String.
From Verif Require Import Base Server Dispatch.
Local Open Scope Z_scope.

(** the answer that reports an outcome *)
Inductive reports : outcome -> answer -> Prop :=
| rep_value v : reports (Returned v) (AOk v)
| rep_lsp code m : reports (Failed (FLsp code m)) (AErr code m)
| rep_cancelled : reports (Failed FCancelled) (AErr (-32801) (`"content modified"))
| rep_other m : reports (Failed (FOther m)) (AErr (-32603) m)
| rep_panic m : reports (Panicked (PText m)) (AErr (-32603) (`"server panicked: " ++ m))
| rep_panic_opaque : reports (Panicked POpaque) (AErr (-32603) (`"server panicked")).

(** [rt] is the first entry of the table for a method *)
Definition first_route {D} (rts : list (route D)) (method : text) (rt : route D) : Prop :=
  exists before after, rts = before ++ rt :: after /\ rt_method rt = method /\
    forall x, In x before -> rt_method x <> method.

(** what running a handler on some data may come to *)
Inductive comes_to {D P} (d : D) (p : P) : handler D P -> outcome -> Prop :=
| ct_mut f : comes_to d p (OnSyncMut f) (snd (f d p))
| ct_sync f : comes_to d p (OnSync f) (f d p)
| ct_pool f cut : comes_to d p (OnPool f) (f d p cut).

(** the answer due to a request that arrives when the data is [d] *)
Inductive due {D} (down : D -> bool) (rts : list (route D)) (d : D) (c : call) : answer -> Prop :=
| due_down : down d = true -> due down rts d c (AErr (-32600) (`"Shutdown already requested."))
| due_unknown :
    down d = false -> (forall rt, In rt rts -> rt_method rt <> cl_method c) ->
    due down rts d c (AErr (-32601) (`"unknown request"))
| due_params rt err :
    down d = false -> first_route rts (cl_method c) rt -> rt_decode rt (cl_params c) = inr err ->
    due down rts d c (AErr (-32602) (`"Failed to deserialize " ++ cl_method c ++ `": " ++ err ++ `"; " ++ cl_params c))
| due_handler rt p o a :
    down d = false -> first_route rts (cl_method c) rt -> rt_decode rt (cl_params c) = inl p ->
    comes_to d p (rt_handler rt) o -> reports o a ->
    due down rts d c a.

(** the request is one that is worked on by the pool *)
Definition pooled {D} (down : D -> bool) (rts : list (route D)) (d : D) (c : call) : Prop :=
  down d = false /\ exists rt p f, first_route rts (cl_method c) rt /\ rt_decode rt (cl_params c) = inl p /\ rt_handler rt = OnPool f.
(** its handler changes the data, and panics *)
Definition blows_up {D} (down : D -> bool) (rts : list (route D)) (d : D) (c : call) : Prop :=
  down d = false /\ exists rt p f m, first_route rts (cl_method c) rt /\ rt_decode rt (cl_params c) = inl p /\
    rt_handler rt = OnSyncMut f /\ snd (f d p) = Panicked m.
(** the data after a request: only handlers registered as changing it do so *)
Inductive data_after {D} (down : D -> bool) (rts : list (route D)) (d : D) (c : call) : D -> Prop :=
| da_mut rt p f :
    down d = false -> first_route rts (cl_method c) rt -> rt_decode rt (cl_params c) = inl p ->
    rt_handler rt = OnSyncMut f -> data_after down rts d c (fst (f d p))
| da_same :
    (forall rt p f, down d = false -> first_route rts (cl_method c) rt -> rt_decode rt (cl_params c) = inl p ->
       rt_handler rt <> OnSyncMut f) ->
    data_after down rts d c d.

(** the requests among the events *)
Fixpoint calls {D} (es : list (event D)) : list call :=
  match es with [] => [] | ERequest c :: rest => c :: calls rest | _ :: rest => calls rest end.
Definition call_ids {D} (es : list (event D)) : list request_id := map cl_id (calls es).
(** the request [c] arrived when the data was [d] *)
Definition arrived {D} (down : D -> bool) (rts : list (route D)) (d0 : D) (es : list (event D)) (c : call) (d : D) : Prop :=
  exists before after s out, es = before ++ ERequest c :: after /\
    g_run down rts (g_start d0) before = Ok (s, out) /\ g_data s = d.
Definition cancelled_answer : answer := AErr (-32800) (`"canceled by client").

(** notifications: the first listener for a method *)
Definition first_listener {D} (ls : list (listener D)) (method : text) (l : listener D) : Prop :=
  exists before after, ls = before ++ l :: after /\ ls_method l = method /\
    forall x, In x before -> ls_method x <> method.
