(** The main thread and its workers, from the first event to the end of the
    process: jobs hold snapshots, a change waits for them, and at the end the
    fields of the state are dropped in order. *)
From Verif Require Import Base.

(** a job of the pool: the number of queries it asks, and whether it panics after
    them (dispatch.rs:97-107: a panic of a request is caught, so that such a job
    does not panic; main_loop.rs:317-335: a panic of a job for diagnostics is not) *)
Record job := Job { j_id : nat; j_queries : nat; j_panics : bool }.
(** what a turn of the main loop does with the pool.  main_loop.rs:127-135
    [next_event] takes a result only if there is one: [Receive] does nothing
    otherwise. *)
Inductive turn :=
| Spawn (j : job)  (* thread_pool.rs:15-24 [spawn], with a snapshot of the state *)
| Change           (* ide_db/apply_change.rs:12-14 [apply_change] *)
| Receive.         (* main_loop.rs:132-133, 160-163 *)
Inductive act := Turn (t : turn) | Cancel | Join | Close.
(** global_state.rs:27-31 [Handle]: the fields are dropped in this order.
    thread_pool.rs:42-46: dropping the pool joins it; dropping the receiver closes
    the channel. *)
Definition drop_handle : list act := [Join; Close].
(** global_state.rs:207-211 [drop], then the fields (lines 43-61), of which
    [task_pool] is the only one with an effect on the workers *)
Definition drop_state : list act := Cancel :: drop_handle.
(** main_loop.rs:39 and 84-125 [run], which owns the state, so that it is dropped
    whichever way the loop ends *)
Definition main_thread (body : list turn) : list act := map Turn body ++ drop_state.

(** a worker with a job: it computes, with the snapshot and some queries to go, or
    it sends the result; the snapshot belongs to the task, which is consumed
    before the result is sent (thread_pool.rs:20-23) *)
Inductive activity := Computing (j : job) (left : nat) | Sending (j : job).
Record state := St {
  todo : list act; queue : list job; active : list activity;
  chan : list nat; is_open : bool; taken : list nat; failed : list nat; died : list nat }.
Definition start (body : list turn) : state := St (main_thread body) [] [] [] true [] [] [].
Definition holds_snapshot (a : activity) : bool := match a with Computing _ _ => true | Sending _ => false end.
Definition snapshots (s : state) : bool :=
  match queue s with [] => existsb holds_snapshot (active s) | _ => true end.
(** salsa: [synthetic_write] sets the flag that asks for cancellation and then
    waits until there is no snapshot *)
Definition writing (s : state) : bool :=
  match todo s with Turn Change :: _ => true | Cancel :: _ => true | _ => false end.
Definition set_main (s : state) (r : list act) : state :=
  St r (queue s) (active s) (chan s) (is_open s) (taken s) (failed s) (died s).
Definition main_step (s : state) : option state :=
  match todo s with
  | Turn (Spawn j) :: r => Some (St r (queue s ++ [j]) (active s) (chan s) (is_open s) (taken s) (failed s) (died s))
  | Turn Change :: r => if snapshots s then None else Some (set_main s r)
  | Turn Receive :: r =>
      match chan s with
      | x :: c => Some (St r (queue s) (active s) c (is_open s) (taken s ++ [x]) (failed s) (died s))
      | [] => Some (set_main s r)
      end
  | Cancel :: r => if snapshots s then None else Some (set_main s r)
  (* threadpool: join waits until nothing is queued and nothing active *)
  | Join :: r => match queue s, active s with [], [] => Some (set_main s r) | _, _ => None end
  | Close :: r => Some (St r (queue s) (active s) (chan s) false (taken s) (failed s) (died s))
  | [] => None
  end.

(** the worker number [i] of those that have a job; the others are idle *)
Definition set_active (s : state) (l : list activity) : state :=
  St (todo s) (queue s) l (chan s) (is_open s) (taken s) (failed s) (died s).
Definition remove {A} (i : nat) (l : list A) : list A := firstn i l ++ skipn (S i) l.
Definition replace {A} (i : nat) (x : A) (l : list A) : list A := firstn i l ++ x :: skipn (S i) l.
Inductive label :=
| LMain         (* the main thread goes on *)
| LStart        (* an idle worker takes the first job of the queue *)
| LStep (i : nat)  (* a worker goes on *)
| LCut (i : nat).  (* a query finds that a change is waiting: the rest of the job is cancelled *)
Definition step (workers : nat) (s : state) (l : label) : option state :=
  match l with
  | LMain => main_step s
  | LStart =>
      match queue s with
      | j :: q =>
          if (length (active s) <? workers)%nat
          then Some (St (todo s) q (active s ++ [Computing j (j_queries j)]) (chan s) (is_open s) (taken s) (failed s) (died s))
          else None
      | [] => None
      end
  | LStep i =>
      match nth_error (active s) i with
      | Some (Computing j (S k)) => Some (set_active s (replace i (Computing j k) (active s)))
      | Some (Computing j O) =>
          if j_panics j
          (* threadpool: the worker is replaced, the job counts as ended *)
          then Some (St (todo s) (queue s) (remove i (active s)) (chan s) (is_open s) (taken s) (failed s) (died s ++ [j_id j]))
          else Some (set_active s (replace i (Sending j) (active s)))
      (* thread_pool.rs:22: send fails, and unwrap panics, if the receiver is gone *)
      | Some (Sending j) =>
          if is_open s
          then Some (St (todo s) (queue s) (remove i (active s)) (chan s ++ [j_id j]) (is_open s) (taken s) (failed s) (died s))
          else Some (St (todo s) (queue s) (remove i (active s)) (chan s) (is_open s) (taken s) (failed s ++ [j_id j]) (died s))
      | None => None
      end
  | LCut i =>
      if writing s then
        match nth_error (active s) i with
        | Some (Computing j (S _)) => Some (set_active s (replace i (Sending j) (active s)))
        | _ => None
        end
      else None
  end.
Fixpoint run (workers : nat) (s : state) (ls : list label) : option state :=
  match ls with
  | [] => Some s
  | l :: r => match step workers s l with Some s' => run workers s' r | None => None end
  end.
