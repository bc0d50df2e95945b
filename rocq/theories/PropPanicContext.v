(** C80: a panic is reported with the contexts open around it on its thread. *)
From Coq Require Import String.
From Verif Require Import Base PanicContext PanicSpec PanicProofs.

(** Whatever the threads do and however they are scheduled: the process is not
    aborted by the reporting itself; what a thread has written is the beginning of
    what its own code writes, so that no context of another thread or of a scope
    already left is in it; and once it has ended, it has written all of it, has
    panicked exactly if its code does, and has no context left. *)
Theorem C80_reports codes schedule :
  let w := run schedule (start codes) in
  aborted w = false /\
  forall i, exists o p,
    writes [] (codes i) o p /\
    (exists rest, written i w ++ rest = o) /\
    (forall q, where_ (threads w i) = Over q -> written i w = o /\ q = p /\ ctx (threads w i) = []).
Proof.
  cbn zeta. pose proof (run_good codes schedule _ (good_start codes)) as (A & B & C).
  split; [assumption|]. intros i. destruct (C i) as (o & p & r & W & L & E).
  exists o, p. split; [assumption|]. split; [eauto|]. intros q Hq.
  inversion L as [? ? ? ? ? ? ? ? ? T|? ? ? ? ? ? T|? ? ? ? ? T|? T]; rewrite <- T in *; cbn in *; try discriminate.
  subst. injection Hq as ->. rewrite app_nil_r in *. auto.
Qed.

(** What a piece of code writes is determined by it and the scopes around it. *)
Theorem C80_writes_one open c :
  exists o p, writes open c o p /\ forall o' p', writes open c o' p' -> o' = o /\ p' = p.
Proof.
  destruct (writes_total c open) as (o & p & H). exists o, p. split; [assumption|].
  intros o' p' H'. destruct (writes_functional _ _ _ _ _ _ H' H); auto.
Qed.

(** A thread that has not ended can go on. *)
Theorem C80_never_stuck codes schedule i :
  let w := run schedule (start codes) in
  step i w = None -> exists p, where_ (threads w i) = Over p.
Proof. cbn zeta. eapply step_progress, run_good, good_start. Qed.

(** ** The server *)

Lemma writes_handler open o :
  writes open (handler o) (match o with Some m => report open m | None => [] end)
    (match o with Some _ => true | None => false end).
Proof. destruct o; constructor. Qed.

Lemma handle_writes m : exists p, writes [] (handle m) (message_report m) p /\ (survives m <-> p = false).
Proof.
  destruct m as [me pa o|me pa o|me o|x|].
  - exists (match o with Some _ => true | None => false end). split; [constructor|destruct o; cbn; intuition discriminate].
    pose proof (writes_handler ([] ++ [request_context me pa]) o). destruct o; assumption.
  - exists false. split; [|destruct o; cbn; intuition].
    apply w_caught with (match o with Some _ => true | None => false end). constructor.
    pose proof (writes_handler ([] ++ [request_context me pa]) o). destruct o; assumption.
  - exists (match o with Some _ => true | None => false end). split; [constructor|destruct o; cbn; intuition discriminate].
    pose proof (writes_handler ([] ++ [notification_context me]) o). destruct o; assumption.
  - exists true. split; [constructor|cbn; intuition discriminate].
  - exists false. split; [constructor|cbn; intuition].
Qed.

Lemma sequence_survive l rest o p :
  Forall survives l -> writes [] (sequence rest) o p ->
  writes [] (sequence (map handle l ++ rest)) (concat (map message_report l) ++ o) p.
Proof.
  induction 1 as [|m l Hm _ IH]; intros H; [assumption|]. cbn. rewrite <- app_assoc.
  destruct (handle_writes m) as (q & W & S). apply S in Hm; subst. econstructor; [eassumption|auto].
Qed.

(** The main thread: after any messages whose handlers it survives, also ones that
    panicked and were caught, a message whose handler kills it is reported with its
    own context only; what the workers do does not matter. *)
Theorem C80_main_thread before m after jobs schedule q :
  Forall survives before -> ~ survives m ->
  let w := run schedule (start (server (before ++ m :: after) jobs)) in
  (exists rest, written 0 w ++ rest = concat (map message_report before) ++ message_report m) /\
  (where_ (threads w 0) = Over q ->
   q = true /\ written 0 w = concat (map message_report before) ++ message_report m).
Proof.
  intros Hb Hm. cbn zeta.
  destruct (C80_reports (server (before ++ m :: after) jobs) schedule) as (_ & C).
  destruct (C O) as (o & p & W & P & E).
  assert (W' : writes [] (server (before ++ m :: after) jobs 0) (concat (map message_report before) ++ message_report m) true).
  { cbn [server]. rewrite map_app. apply sequence_survive; [assumption|]. cbn.
    destruct (handle_writes m) as (r & Wr & S). apply w_then_panic. destruct r; [assumption|tauto]. }
  destruct (writes_functional _ _ _ _ _ _ W W') as [-> ->]. split; [assumption|].
  intros H. destruct (E q H) as (-> & -> & _). auto.
Qed.
Theorem C80_main_thread_survives messages jobs schedule q :
  Forall survives messages ->
  let w := run schedule (start (server messages jobs)) in
  (exists rest, written 0 w ++ rest = concat (map message_report messages)) /\
  (where_ (threads w 0) = Over q -> q = false /\ written 0 w = concat (map message_report messages)).
Proof.
  intros Hb. cbn zeta.
  destruct (C80_reports (server messages jobs) schedule) as (_ & C).
  destruct (C O) as (o & p & W & P & E).
  assert (W' : writes [] (server messages jobs 0) (concat (map message_report messages)) false).
  { pose proof (sequence_survive messages [] [] false Hb (w_pass [])) as X. rewrite !app_nil_r in X. exact X. }
  destruct (writes_functional _ _ _ _ _ _ W W') as [-> ->]. split; [assumption|].
  intros H. destruct (E q H) as (-> & -> & _). auto.
Qed.

(** A worker: each request whose handler panics is reported with its own context
    only, and the worker goes on. *)
Definition job_report (r : text * text * option text) : list line :=
  let '(method, params, o) := r in message_report (Sync method params o).
Theorem C80_workers messages jobs schedule i q :
  let w := run schedule (start (server messages jobs)) in
  (exists rest, written (S i) w ++ rest = concat (map job_report (jobs i))) /\
  (where_ (threads w (S i)) = Over q -> q = false /\ written (S i) w = concat (map job_report (jobs i))).
Proof.
  cbn zeta. destruct (C80_reports (server messages jobs) schedule) as (_ & C).
  destruct (C (S i)) as (o & p & W & P & E).
  assert (W' : writes [] (server messages jobs (S i)) (concat (map job_report (jobs i))) false).
  { cbn [server]. clear. induction (jobs i) as [|[[me pa] o] l IH]; [constructor|].
    cbn [map sequence concat]. eapply w_then; [|exact IH].
    destruct (handle_writes (Sync me pa o)) as (q & H & _). cbn [handle] in H. inversion H; subst. econstructor. eassumption. }
  destruct (writes_functional _ _ _ _ _ _ W W') as [-> ->]. split; [assumption|].
  intros H. destruct (E q H) as (-> & -> & _). auto.
Qed.

(** ** Cases *)
Definition ctx_case := server
  [Sync (`"a") (`"1") (Some (`"first")); Other; Notify (`"n") (Some (`"second")); Sync (`"b") (`"2") None]
  (fun _ => [(`"j", `"3", Some (`"third")); (`"k", `"4", None)]).
Definition ctx_run := run (repeat 0 40 ++ repeat 1 40) (start ctx_case).

(** Both threads end; one panic was caught, another ended the main thread. *)
Example ctx_ends :
  where_ (threads ctx_run 0) = Over true /\ where_ (threads ctx_run 1) = Over false /\
  written 0 ctx_run =
    [Printed (`"Panic context:" ++ [cLF]); Printed (`"> " ++ [cLF] ++ `"request: a 1" ++ [cLF; cLF]); Standard (`"first");
     Printed (`"Panic context:" ++ [cLF]); Printed (`"> " ++ [cLF] ++ `"notification: n" ++ [cLF; cLF]); Standard (`"second")] /\
  written 1 ctx_run =
    [Printed (`"Panic context:" ++ [cLF]); Printed (`"> " ++ [cLF] ++ `"request: j 3" ++ [cLF; cLF]); Standard (`"third")].
Proof. vm_compute. auto. Qed.
(** Lines of two threads may be mixed. *)
Example ctx_mixed :
  map fst (out (run (repeat 0 7 ++ repeat 1 7 ++ repeat 0 40) (start ctx_case))) = [0; 0; 1; 1; 1; 0; 0; 0; 0]%nat.
Proof. vm_compute. reflexivity. Qed.
(** Scopes inside one another are listed from the outside. *)
Example ctx_nested :
  written 0 (run (repeat 0 40) (start (fun _ =>
    Guarded (`"a") (Then (Guarded (`"b") Pass) (Guarded (`"c") (Fail (`"x"))))))) =
    [Printed (`"Panic context:" ++ [cLF]); Printed (`"> a" ++ [cLF; cLF]); Printed (`"> c" ++ [cLF; cLF]); Standard (`"x")].
Proof. vm_compute. reflexivity. Qed.
(** A notification that does not decode brings the server down without a context. *)
Example ctx_missing : message_report (Undecoded (`"x")) = [Standard (`"x")].
Proof. reflexivity. Qed.

Print Assumptions C80_reports.
Print Assumptions C80_writes_one.
Print Assumptions C80_never_stuck.
Print Assumptions C80_main_thread.
Print Assumptions C80_main_thread_survives.
Print Assumptions C80_workers.
