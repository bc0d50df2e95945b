(** Model of the contexts printed with a panic (stdx/src/panic_context.rs) and of
    the places where the dispatchers enter them (move_language_server/src/dispatch.rs). *)
From Coq Require Import String.
From Verif Require Import Base.

(** What a thread does, as far as contexts go: nothing, panic with a message,
    run something below [let _pctx = enter(context)], run something below
    [catch_unwind], or two things one after the other.  The work done in between
    has no part in the contexts and is left out. *)
Inductive code :=
| Pass
| Fail (message : text)
| Guarded (context : text) (body : code)
| Caught (body : code)
| Then (a b : code).

(** What still has to be done on the way out of the current code: the rest of a
    sequence, dropping a [PanicContext], leaving a [catch_unwind]. *)
Inductive frame := KThen (b : code) | KGuard | KCaught.

(** A line on stderr: one written by the hook (panic_context.rs:26,28), or the
    message of the hook that was there before (its text is kept, not its place in
    the source). *)
Inductive line := Printed (t : text) | Standard (message : text).

(** Where a thread is: it runs, it is inside the panic hook with lines left to be
    written, it unwinds, or it is over (and panicked or not). *)
Inductive point :=
| Run (c : code) (k : list frame)
| Hook (todo : list line) (k : list frame)
| Unwind (k : list frame)
| Over (panicked : bool).

(** The thread-local [CTX] (panic_context.rs:44-49), and where the thread is. *)
Record thread := Thread { ctx : list text; where_ : point }.

(** All threads; whether the hook has been set ([ONCE], panic_context.rs:8); the
    lines written, oldest first, with the thread that wrote each; whether the process has aborted. *)
Record world := World { threads : nat -> thread; hooked : bool; out : list (nat * line); aborted : bool }.

(** [Vec::pop] *)
Definition pop (v : list text) : option (list text) :=
  match v with [] => None | _ => Some (removelast v) end.

(** panic_context.rs:23-33 [hook]: what it writes for the contexts [c].  Each
    [eprintln!] is a step of its own, so lines of two threads may be mixed. *)
Definition hook_lines (c : list text) : list line :=
  match c with
  | [] => []
  | _ => Printed (`"Panic context:" ++ [cLF]) :: map (fun f => Printed (`"> " ++ f ++ [cLF; cLF])) c
  end.

Definition set_thread (i : nat) (t : thread) (w : world) : world :=
  World (fun j => if Nat.eqb j i then t else threads w j) (hooked w) (out w) (aborted w).
Definition abort (w : world) : world := World (threads w) (hooked w) (out w) true.

(** One step of thread [i]; [None] if it has none.
    panic_context.rs:7-13 [enter]: the first call sets the hook ([Once]), then the
    context is pushed.  panic_context.rs:38-42 [drop]: a failing assertion there
    would panic with [CTX] borrowed, which the hook borrows again: the process
    aborts.  [catch_unwind] and unwinding are those of the language. *)
Definition step (i : nat) (w : world) : option world :=
  if aborted w then None else
  let t := threads w i in
  let goes c p := Some (set_thread i (Thread c p) w) in
  let drop_guard p := match pop (ctx t) with Some c => goes c p | None => Some (abort w) end in
  match where_ t with
  | Run Pass [] => goes (ctx t) (Over false)
  | Run Pass (KThen b :: k) => goes (ctx t) (Run b k)
  | Run Pass (KGuard :: k) => drop_guard (Run Pass k)
  | Run Pass (KCaught :: k) => goes (ctx t) (Run Pass k)
  | Run (Fail m) k => goes (ctx t) (Hook ((if hooked w then hook_lines (ctx t) else []) ++ [Standard m]) k)
  | Run (Guarded c b) k =>
      if hooked w then goes (ctx t ++ [c]) (Run b (KGuard :: k))
      else Some (World (threads w) true (out w) (aborted w))
  | Run (Caught b) k => goes (ctx t) (Run b (KCaught :: k))
  | Run (Then a b) k => goes (ctx t) (Run a (KThen b :: k))
  | Hook (l :: r) k =>
      Some (set_thread i (Thread (ctx t) (Hook r k)) (World (threads w) (hooked w) (out w ++ [(i, l)]) (aborted w)))
  | Hook [] k => goes (ctx t) (Unwind k)
  | Unwind [] => goes (ctx t) (Over true)
  | Unwind (KThen _ :: k) => goes (ctx t) (Unwind k)
  | Unwind (KGuard :: k) => drop_guard (Unwind k)
  | Unwind (KCaught :: k) => goes (ctx t) (Run Pass k)
  | Over _ => None
  end.

(** Every thread starts with an empty [CTX]. *)
Definition start (codes : nat -> code) : world :=
  World (fun i => Thread [] (Run (codes i) [])) false [] false.

(** A schedule names the thread that steps next; one that cannot step is passed over. *)
Fixpoint run (schedule : list nat) (w : world) : world :=
  match schedule with
  | [] => w
  | i :: r => run r (match step i w with Some w' => w' | None => w end)
  end.

(** ** The dispatchers *)

(** What comes of a handler: it returns, or panics with a message. *)
Definition handler (outcome : option text) : code :=
  match outcome with Some m => Fail m | None => Pass end.

(** dispatch.rs:137 and :239; the parameters are given as they are printed *)
Definition request_context (method params : text) : text := [cLF] ++ `"request: " ++ method ++ `" " ++ params.
Definition notification_context (method : text) : text := [cLF] ++ `"notification: " ++ method.

Inductive message :=
| SyncMut (method params : text) (outcome : option text)       (* [on_sync_mut], dispatch.rs:34-54 *)
| Sync (method params : text) (outcome : option text)          (* [on_sync], dispatch.rs:57-80 *)
| Notify (method : text) (outcome : option text)               (* [NotificationDispatcher::on], dispatch.rs:221-242 *)
| Undecoded (panic_message : text)                             (* the same, if [extract] panics, dispatch.rs:232 *)
| Other.                                                       (* what no handler is called for *)

(** What the main thread does for a message; answering has no part in contexts. *)
Definition handle (m : message) : code :=
  match m with
  | SyncMut method params o => Guarded (request_context method params) (handler o)
  | Sync method params o => Caught (Guarded (request_context method params) (handler o))
  | Notify method o => Guarded (notification_context method) (handler o)
  | Undecoded p => Fail p
  | Other => Pass
  end.
(** dispatch.rs:83-110 [on]: what a worker does for a request *)
Definition job (r : text * text * option text) : code :=
  let '(method, params, o) := r in Caught (Guarded (request_context method params) (handler o)).

Fixpoint sequence (l : list code) : code :=
  match l with [] => Pass | c :: r => Then c (sequence r) end.
(** Thread 0 is the main thread, with the messages it takes; every other thread is
    a worker, with the jobs it takes. *)
Definition server (messages : list message) (jobs : nat -> list (text * text * option text)) (i : nat) : code :=
  match i with O => sequence (map handle messages) | S w => sequence (map job (jobs w)) end.
