(** What it means to come to an end. *)
From Coq Require Import Permutation.
From Verif Require Import Base Ending.

(** the jobs of a session *)
Definition jobs_of (body : list turn) : list job :=
  flat_map (fun t => match t with Spawn j => [j] | _ => [] end) body.
(** the process has ended: the main thread has nothing left to do *)
Definition ended (s : state) : Prop := todo s = [].
(** a run that cannot go on *)
Definition complete (workers : nat) (s : state) : Prop := forall l, step workers s l = None.
(** a job that has questions left to ask about the documents *)
Definition asking (s : state) (j : job) : Prop := In j (queue s) \/ exists k, In (Computing j k) (active s).
(** the changes that are still to be applied *)
Definition changes (s : state) : list act := filter (fun a => match a with Turn Change => true | _ => false end) (todo s).
