(** C88 — the server ends whenever its main loop does, and no result is sent to
    nobody. *)
From Coq Require Import Permutation Lia.
From Verif Require Import Base Ending EndingSpec.

Definition ids_q (q : list job) : list nat := map j_id q.
Definition id_a (a : activity) : nat := match a with Computing j _ => j_id j | Sending j => j_id j end.
Definition job_a (a : activity) : job := match a with Computing j _ => j | Sending j => j end.
Definition spawns (t : list act) : list job := flat_map (fun a => match a with Turn (Spawn j) => [j] | _ => [] end) t.

Lemma nth_split' {A} (l : list A) i x : nth_error l i = Some x -> l = firstn i l ++ x :: skipn (S i) l.
Proof.
  revert i. induction l as [|y l IH]; intros [|i] H; cbn in *; try discriminate.
  - injection H as ->. reflexivity.
  - f_equal. apply IH, H.
Qed.

(** ** The measure *)
Definition w_job (j : job) : nat := j_queries j + 3.
Definition w_activity (a : activity) : nat := match a with Computing _ k => k + 2 | Sending _ => 1 end.
Definition w_act (a : act) : nat := match a with Turn (Spawn j) => S (w_job j) | _ => 1 end.
Definition sum {A} (f : A -> nat) (l : list A) : nat := fold_right (fun x n => f x + n) 0 l.
Lemma sum_app {A} (f : A -> nat) a b : sum f (a ++ b) = sum f a + sum f b.
Proof. induction a as [|x a IH]; cbn; [reflexivity|]. unfold sum in *. lia. Qed.
Lemma sum_cons {A} (f : A -> nat) x b : sum f (x :: b) = f x + sum f b.
Proof. reflexivity. Qed.
Definition weight (s : state) : nat := sum w_act (todo s) + sum w_job (queue s) + sum w_activity (active s).
Lemma step_weight n s l s' : step n s l = Some s' -> weight s' < weight s.
Proof.
  destruct s as [t q a c o tk f d]. unfold weight. destruct l as [| |i|i]; cbn [step].
  - unfold main_step. cbn [todo queue active chan]. destruct t as [|[[j| |]| | |] t]; intros H; try discriminate.
    + injection H as <-. cbn [todo queue active]. rewrite sum_app, !sum_cons. cbn [w_act sum fold_right]. lia.
    + destruct (snapshots _); [discriminate|]. injection H as <-. cbn [todo queue active set_main]. rewrite !sum_cons. cbn [w_act]. lia.
    + destruct c; injection H as <-; cbn [todo queue active set_main]; rewrite !sum_cons; cbn [w_act]; lia.
    + destruct (snapshots _); [discriminate|]. injection H as <-. cbn [todo queue active set_main]. rewrite !sum_cons. cbn [w_act]. lia.
    + destruct q; [|discriminate]. destruct a; [|discriminate]. injection H as <-. cbn [todo queue active set_main]. rewrite !sum_cons. cbn [w_act]. lia.
    + injection H as <-. cbn [todo queue active]. rewrite !sum_cons. cbn [w_act]. lia.
  - cbn [queue active todo]. destruct q as [|j q]; [discriminate|]. destruct (_ <? _); [|discriminate]. intros H. injection H as <-.
    cbn [todo queue active]. rewrite sum_app, !sum_cons. cbn [sum fold_right w_activity]. unfold w_job. lia.
  - cbn [active todo queue is_open]. destruct (nth_error a i) as [x|] eqn:E; [|discriminate]. apply nth_split' in E.
    assert (S1 : sum w_activity a = sum w_activity (firstn i a) + (w_activity x + sum w_activity (skipn (S i) a))).
    { rewrite E at 1. rewrite sum_app, sum_cons. reflexivity. }
    destruct x as [j [|k]|j].
    + destruct (j_panics j); intros H; injection H as <-; cbn [todo queue active set_active]; rewrite S1; unfold remove, replace; rewrite sum_app, ?sum_cons; cbn [w_activity]; lia.
    + intros H; injection H as <-; cbn [todo queue active set_active]; rewrite S1; unfold remove, replace; rewrite sum_app, ?sum_cons; cbn [w_activity]; lia.
    + destruct o; intros H; injection H as <-; cbn [todo queue active set_active]; rewrite S1; unfold remove, replace; rewrite sum_app, ?sum_cons; cbn [w_activity]; lia.
  - destruct (writing _); [|discriminate]. cbn [active todo queue]. destruct (nth_error a i) as [x|] eqn:E; [|discriminate]. apply nth_split' in E.
    destruct x as [j [|k]|j]; try discriminate.
    assert (S1 : sum w_activity a = sum w_activity (firstn i a) + (w_activity (Computing j (S k)) + sum w_activity (skipn (S i) a))).
    { rewrite E at 1. rewrite sum_app, sum_cons. reflexivity. }
    intros H; injection H as <-; cbn [todo queue active set_active]; rewrite S1; unfold replace; rewrite sum_app, sum_cons; cbn [w_activity]; lia.
Qed.

(** ** The invariant *)
Definition phase (s : state) : Prop :=
  (exists body, todo s = main_thread body /\ is_open s = true) \/
  (todo s = [Join; Close] /\ is_open s = true) \/
  (todo s = [Close] /\ is_open s = true /\ queue s = [] /\ active s = []) \/
  (todo s = [] /\ queue s = [] /\ active s = []).
Lemma removed {A} i (x : A) l : nth_error l i = Some x -> Permutation l (x :: remove i l).
Proof. intros E. apply nth_split' in E. rewrite E at 1. symmetry. apply Permutation_middle. Qed.
Lemma replaced {A B} (f : A -> B) i x y l : nth_error l i = Some x -> f y = f x -> map f (replace i y l) = map f l.
Proof. intros E F. apply nth_split' in E. transitivity (map f (firstn i l ++ x :: skipn (S i) l)); [|f_equal; symmetry; exact E]. unfold replace. rewrite !map_app. cbn [map]. rewrite F. reflexivity. Qed.
Lemma step_phase n s l s' : phase s -> step n s l = Some s' -> phase s'.
Proof.
  intros P H. destruct s as [t q a c o tk f d]. unfold phase in *. cbn [todo queue active is_open] in P.
  destruct P as [(body & -> & ->)|[[-> ->]|[(-> & -> & -> & ->)|(-> & -> & ->)]]]; destruct l as [| |i|i]; cbn [step] in H.
  - unfold main_step in H. cbn [todo queue active chan] in H. destruct body as [|[j| |] body]; cbn [main_thread map app drop_state drop_handle] in H.
    + destruct (snapshots _); [discriminate|]. injection H as <-. right; left. split; reflexivity.
    + injection H as <-. left. exists body. split; reflexivity.
    + destruct (snapshots _); [discriminate|]. injection H as <-. left. exists body. split; reflexivity.
    + destruct c; injection H as <-; left; exists body; split; reflexivity.
  - cbn [queue] in H. destruct q; [discriminate|]. destruct (_ <? _); [|discriminate]. injection H as <-. left. exists body. split; reflexivity.
  - left. exists body. destruct (nth_error _ _) as [[j [|k]|j]|]; try discriminate; [destruct (j_panics j)| |]; injection H as <-; split; reflexivity.
  - left. exists body. destruct (writing _); [|discriminate]. destruct (nth_error _ _) as [[j [|k]|j]|]; try discriminate; injection H as <-; split; reflexivity.
  - unfold main_step in H. cbn [todo queue active chan] in H. destruct q; [|discriminate]. destruct a; [|discriminate]. injection H as <-. right; right; left. repeat split.
  - cbn [queue] in H. destruct q; [discriminate|]. destruct (_ <? _); [|discriminate]. injection H as <-. right; left. split; reflexivity.
  - right; left. destruct (nth_error _ _) as [[j [|k]|j]|]; try discriminate; [destruct (j_panics j)| |]; injection H as <-; split; reflexivity.
  - discriminate.
  - injection H as <-. right; right; right. repeat split.
  - discriminate.
  - cbn [active] in H. destruct i; discriminate.
  - discriminate.
  - discriminate.
  - discriminate.
  - cbn [active] in H. destruct i; discriminate.
  - discriminate.
Qed.
Lemma step_failed n s l s' : phase s -> step n s l = Some s' -> failed s' = failed s.
Proof.
  intros P H. destruct l as [| |i|i]; cbn [step] in H.
  - unfold main_step in H. destruct (todo s) as [|[[j| |]| | |] t]; try discriminate.
    + injection H as <-. reflexivity.
    + destruct (snapshots s); [discriminate|]. injection H as <-. reflexivity.
    + destruct (chan s); injection H as <-; reflexivity.
    + destruct (snapshots s); [discriminate|]. injection H as <-. reflexivity.
    + destruct (queue s); [|discriminate]. destruct (active s); [|discriminate]. injection H as <-. reflexivity.
    + injection H as <-. reflexivity.
  - destruct (queue s); [discriminate|]. destruct (_ <? _); [|discriminate]. injection H as <-. reflexivity.
  - destruct (nth_error (active s) i) as [[j [|k]|j]|] eqn:E; try discriminate.
    + destruct (j_panics j); injection H as <-; reflexivity.
    + injection H as <-; reflexivity.
    + assert (O : is_open s = true).
      { destruct P as [(b & _ & O)|[[_ O]|[(_ & O & _)|(_ & _ & A)]]]; try exact O. rewrite A in E. destruct i; discriminate. }
      rewrite O in H. injection H as <-. reflexivity.
  - destruct (writing s); [|discriminate]. destruct (nth_error _ _) as [[j [|k]|j]|]; try discriminate. injection H as <-. reflexivity.
Qed.
(** where the jobs are *)
Definition places (s : state) : list nat :=
  map j_id (spawns (todo s)) ++ map j_id (queue s) ++ map id_a (active s) ++ chan s ++ taken s ++ failed s ++ died s.
Lemma step_places n s l s' : step n s l = Some s' -> Permutation (places s) (places s').
Proof.
  intros H. destruct s as [t q a c o tk f d]. unfold places. destruct l as [| |i|i]; cbn [step] in H.
  - unfold main_step in H. cbn [todo queue active chan] in H. destruct t as [|[[j| |]| | |] t]; try discriminate.
    + injection H as <-. cbn [todo queue active chan taken failed died spawns flat_map app map]. fold (spawns t). rewrite map_app. cbn [map].
      rewrite <- app_assoc. cbn [app]. rewrite (app_assoc (map j_id (spawns t))). rewrite (app_assoc (map j_id (spawns t)) (map j_id q) (j_id j :: _)).
      rewrite app_comm_cons. rewrite <- app_comm_cons. apply Permutation_middle.
    + destruct (snapshots _); [discriminate|]. injection H as <-. reflexivity.
    + destruct c as [|x c]; injection H as <-; [reflexivity|]. cbn [todo queue active chan taken failed died spawns flat_map app]. do 3 apply Permutation_app_head.
      rewrite (app_assoc c (tk ++ [x])), (app_assoc c tk [x]), <- (app_assoc (c ++ tk)). cbn [app]. rewrite (app_assoc c tk). apply Permutation_middle.
    + destruct (snapshots _); [discriminate|]. injection H as <-. reflexivity.
    + destruct q; [|discriminate]. destruct a; [|discriminate]. injection H as <-. reflexivity.
    + injection H as <-. reflexivity.
  - cbn [queue active] in H. destruct q as [|j q]; [discriminate|]. destruct (_ <? _); [|discriminate]. injection H as <-.
    cbn [todo queue active chan taken failed died map]. apply Permutation_app_head. rewrite map_app. cbn [map id_a].
    rewrite <- (app_assoc (map id_a a)). cbn [app]. rewrite !(app_assoc (map j_id q)). apply Permutation_middle.
  - cbn [active is_open] in H. destruct (nth_error a i) as [[j [|k]|j]|] eqn:E; try discriminate.
    + destruct (j_panics j); injection H as <-; cbn [todo queue active chan taken failed died set_active].
      * do 2 apply Permutation_app_head. rewrite (Permutation_map id_a (removed _ _ _ E)). cbn [map id_a app].
        rewrite !app_assoc. apply (Permutation_cons_append _ (j_id j)).
      * rewrite (replaced id_a _ _ _ _ E); reflexivity.
    + injection H as <-; cbn [todo queue active chan taken failed died set_active]. rewrite (replaced id_a _ _ _ _ E); reflexivity.
    + destruct o; injection H as <-; cbn [todo queue active chan taken failed died set_active]; do 2 apply Permutation_app_head; rewrite (Permutation_map id_a (removed _ _ _ E)); cbn [map id_a app].
      * rewrite <- (app_assoc c). cbn [app]. rewrite !(app_assoc (map id_a (remove i a))). apply Permutation_middle.
      * rewrite <- (app_assoc f). cbn [app]. rewrite (app_assoc tk f), (app_assoc tk f (j_id j :: d)), !(app_assoc c), !(app_assoc (map id_a (remove i a))). apply Permutation_middle.
  - destruct (writing _); [|discriminate]. cbn [active] in H. destruct (nth_error a i) as [[j [|k]|j]|] eqn:E; try discriminate.
    injection H as <-; cbn [todo queue active chan taken failed died set_active]. rewrite (replaced id_a _ _ _ _ E); reflexivity.
Qed.
Lemma run_inv n (P : state -> Prop) : (forall s l s', P s -> step n s l = Some s' -> P s') -> forall ls s s', P s -> run n s ls = Some s' -> P s'.
Proof.
  intros St. induction ls as [|l ls IH]; intros s s' H R; cbn in R; [injection R as <-; exact H|].
  destruct (step n s l) as [s1|] eqn:E; [|discriminate]. exact (IH s1 s' (St s l s1 H E) R).
Qed.
Lemma start_phase body : phase (start body).
Proof. left. exists body. split; reflexivity. Qed.
Lemma run_phase n body ls s : run n (start body) ls = Some s -> phase s.
Proof. apply run_inv; [intros ? ? ?; apply step_phase|apply start_phase]. Qed.

(** ** The properties *)
(** However the threads are scheduled, a run has a bounded number of steps. *)
Theorem C88_bounded : forall workers body, exists bound, forall ls s, run workers (start body) ls = Some s -> length ls <= bound.
Proof.
  intros n body. exists (weight (start body)). intros ls. generalize (start body). induction ls as [|l ls IH]; intros s0 s R; cbn [length]; [lia|].
  cbn [run] in R. destruct (step n s0 l) as [s1|] eqn:E; [|discriminate]. apply step_weight in E. specialize (IH s1 s R). lia.
Qed.
(** A run that cannot go on is one in which the process has ended: no deadlock
    between the main thread, which waits for the snapshots or the pool, and the
    workers. *)
Theorem C88_no_deadlock : forall workers body ls s, 1 <= workers -> run workers (start body) ls = Some s -> complete workers s -> ended s.
Proof.
  intros n body ls s W R C. pose proof (run_phase _ _ _ _ R) as P.
  assert (A : active s = []).
  { destruct (active s) as [|x a] eqn:A; [reflexivity|]. specialize (C (LStep 0)). cbn [step] in C. rewrite A in C. cbn [nth_error] in C.
    destruct x as [j [|k]|j]; [destruct (j_panics j); discriminate|discriminate|destruct (is_open s); discriminate]. }
  assert (Q : queue s = []).
  { destruct (queue s) as [|j q] eqn:Q; [reflexivity|]. specialize (C LStart). cbn [step] in C. rewrite Q, A in C. cbn [length] in C.
    destruct n; [lia|]. discriminate. }
  specialize (C LMain). cbn [step] in C. unfold main_step, snapshots in C. rewrite Q, A in C. cbn [existsb] in C. unfold ended.
  destruct (todo s) as [|[[j| |]| | |] t]; try reflexivity; try discriminate. destruct (chan s); discriminate.
Qed.
(** Hence every session comes to its end, from wherever it has come to. *)
Theorem C88_ends : forall workers body ls s, 1 <= workers -> run workers (start body) ls = Some s -> exists ls' s', run workers s ls' = Some s' /\ ended s'.
Proof.
  intros n body ls s W R. remember (weight s) as w eqn:E. revert ls s R E. induction w as [w IH] using lt_wf_ind. intros ls s R E.
  destruct (todo s) as [|t0 t] eqn:T; [exists [], s; split; [reflexivity|exact T]|].
  assert (X : exists l s', step n s l = Some s').
  { destruct (active s) as [|x a] eqn:A.
    - destruct (queue s) as [|j q] eqn:Q.
      + exists LMain. cbn [step]. unfold main_step, snapshots. rewrite T, Q, A. cbn [existsb]. destruct t0 as [[j| |]| | |]; try (eexists; reflexivity). destruct (chan s); eexists; reflexivity.
      + exists LStart. cbn [step]. rewrite Q, A. cbn [length]. destruct n; [lia|]. eexists; reflexivity.
    - exists (LStep 0). cbn [step]. rewrite A. cbn [nth_error]. destruct x as [j [|k]|j]; [destruct (j_panics j)| |destruct (is_open s)]; eexists; reflexivity. }
  destruct X as (l & s1 & X). assert (R1 : run n (start body) (ls ++ [l]) = Some s1).
  { clear - R X. revert R. generalize (start body). induction ls as [|k ls IH]; intros s0 R; cbn in *; [injection R as ->; rewrite X; reflexivity|].
    destruct (step n s0 k); [apply IH, R|discriminate]. }
  destruct (IH (weight s1) ltac:(subst w; exact (step_weight _ _ _ _ X)) _ _ R1 eq_refl) as (ls' & s' & R' & En).
  exists (l :: ls'), s'. split; [cbn; rewrite X; exact R'|exact En].
Qed.
(** No worker ever finds that nobody listens. *)
Theorem C88_no_failed_send : forall workers body ls s, run workers (start body) ls = Some s -> failed s = [].
Proof.
  intros n body ls s R. apply (run_inv n (fun s => phase s /\ failed s = [])) with (s := start body) (ls := ls) (s' := s); [|split; [apply start_phase|reflexivity]|exact R].
  intros s0 l s1 [P F] E. split; [exact (step_phase _ _ _ _ P E)|]. rewrite (step_failed _ _ _ _ P E). exact F.
Qed.
Lemma spawns_main body : spawns (main_thread body) = jobs_of body.
Proof.
  unfold main_thread, spawns. rewrite flat_map_app. cbn. rewrite app_nil_r. induction body as [|[j| |] body IH]; cbn; [reflexivity| | |]; rewrite ?IH; reflexivity.
Qed.
(** At the end every job was run: each one has panicked, or its result was taken
    or is in the channel; each one once. *)
Theorem C88_every_job : forall workers body ls s, run workers (start body) ls = Some s -> ended s ->
  Permutation (map j_id (jobs_of body)) (taken s ++ chan s ++ died s).
Proof.
  intros n body ls s R E. pose proof (run_phase _ _ _ _ R) as P. pose proof (C88_no_failed_send _ _ _ _ R) as F.
  assert (X : Permutation (places (start body)) (places s)).
  { apply (run_inv n (fun s => Permutation (places (start body)) (places s))) with (s := start body) (ls := ls); [|reflexivity|exact R].
    intros s0 l s1 H St. rewrite H. exact (step_places _ _ _ _ St). }
  unfold ended in E. destruct P as [(b & T & _)|[[T _]|[(T & _)|(_ & Q & A)]]]; try (rewrite E in T; destruct b; discriminate T); try (rewrite E in T; discriminate T).
  unfold places in X. rewrite E, Q, A, F in X. cbn [start todo queue active chan taken failed died spawns flat_map map app] in X. fold (spawns (main_thread body)) in X.
  rewrite spawns_main, app_nil_r in X. rewrite X, !app_assoc. apply Permutation_app_tail, Permutation_app_comm.
Qed.
(** Only a job that panics is lost. *)
Theorem C88_lost : forall workers body ls s i, run workers (start body) ls = Some s -> In i (died s) -> exists j, In j (jobs_of body) /\ j_id j = i /\ j_panics j = true.
Proof.
  intros n body ls s i R. 
  assert (X : (forall j, In j (spawns (todo s)) \/ In j (queue s) \/ In j (map job_a (active s)) -> In j (jobs_of body)) /\
              (forall i, In i (died s) -> exists j, In j (jobs_of body) /\ j_id j = i /\ j_panics j = true)).
  { apply (run_inv n (fun s => (forall j, In j (spawns (todo s)) \/ In j (queue s) \/ In j (map job_a (active s)) -> In j (jobs_of body)) /\
              (forall i, In i (died s) -> exists j, In j (jobs_of body) /\ j_id j = i /\ j_panics j = true))) with (s := start body) (ls := ls); [| |exact R].
    - clear. intros [t q a c o tk f d] l s' [H D] E. cbn [todo queue active died] in H, D. destruct l as [| |k|k]; cbn [step] in E.
      + unfold main_step in E. cbn [todo queue active chan] in E. destruct t as [|[[j| |]| | |] t]; try discriminate.
        * injection E as <-. cbn [todo queue active died]. split; [|exact D]. intros x [I|[I|I]]; apply H; [left; right; exact I| |right; right; exact I].
          apply in_app_or in I as [I|[->|[]]]; [right; left; exact I|left; left; reflexivity].
        * destruct (snapshots _); [discriminate|]. injection E as <-. split; [exact H|exact D].
        * destruct c; injection E as <-; (split; [exact H|exact D]).
        * destruct (snapshots _); [discriminate|]. injection E as <-. split; [exact H|exact D].
        * destruct q; [|discriminate]. destruct a; [|discriminate]. injection E as <-. split; [exact H|exact D].
        * injection E as <-. split; [exact H|exact D].
      + cbn [queue active] in E. destruct q as [|j q]; [discriminate|]. destruct (_ <? _); [|discriminate]. injection E as <-.
        cbn [todo queue active died]. split; [|exact D]. intros x [I|[I|I]]; apply H; [left; exact I|right; left; right; exact I|].
        rewrite map_app in I. apply in_app_or in I as [I|[<-|[]]]; [right; right; exact I|right; left; left; reflexivity].
      + cbn [active is_open] in E. destruct (nth_error a k) as [x|] eqn:N; [|discriminate]. pose proof (removed _ _ _ N) as Pm.
        assert (Rm : forall j, In j (map job_a (remove k a)) -> In j (map job_a a)).
        { intros j I. apply (Permutation_in j (Permutation_map job_a (Permutation_sym Pm))). right. exact I. }
        assert (Me : In (job_a x) (jobs_of body)).
        { apply H. right; right. apply in_map. exact (nth_error_In _ _ N). }
        destruct x as [j [|m]|j].
        * destruct (j_panics j) eqn:Pj; injection E as <-; cbn [todo queue active died set_active].
          -- split; [intros z [I|[I|I]]; apply H; [left; exact I|right; left; exact I|right; right; exact (Rm z I)]|].
             intros z I. apply in_app_or in I as [I|[<-|[]]]; [exact (D z I)|]. exists j. repeat split; [exact Me|exact Pj].
          -- rewrite (replaced job_a _ _ _ _ N) by reflexivity. split; [exact H|exact D].
        * injection E as <-; cbn [todo queue active died set_active]. rewrite (replaced job_a _ _ _ _ N) by reflexivity. split; [exact H|exact D].
        * destruct o; injection E as <-; cbn [todo queue active died set_active]; (split; [intros z [I|[I|I]]; apply H; [left; exact I|right; left; exact I|right; right; exact (Rm z I)]|exact D]).
      + destruct (writing _); [|discriminate]. cbn [active] in E. destruct (nth_error a k) as [[j [|m]|j]|] eqn:N; try discriminate.
        injection E as <-; cbn [todo queue active died set_active]. rewrite (replaced job_a _ _ _ _ N) by reflexivity. split; [exact H|exact D].
    - split; [|intros ? []]. intros j [I|[[]|[]]]. cbn [start todo] in I. rewrite spawns_main in I. exact I. }
  apply X.
Qed.

(** No change is applied while a job has questions left: all its answers are
    about one version of the documents. *)
Theorem C88_one_version : forall workers s l s', step workers s l = Some s' -> changes s' <> changes s -> forall j, ~ asking s j.
Proof.
  intros n [t q a c o tk f d] l s' E D j [I|[k I]].
  - destruct q as [|x q]; [exact I|]. apply D. clear D I. destruct l as [| |i|i]; cbn [step] in E.
    + unfold main_step, snapshots in E. cbn [todo queue active chan] in E. destruct t as [|[[y| |]| | |] t]; try discriminate; try (injection E as <-; reflexivity). destruct c; injection E as <-; reflexivity.
    + cbn [queue active] in E. destruct (_ <? _); [|discriminate]. injection E as <-. reflexivity.
    + destruct (nth_error _ _) as [[y [|m]|y]|]; try discriminate; [destruct (j_panics y)| |destruct (is_open _)]; injection E as <-; reflexivity.
    + destruct (writing _); [|discriminate]. destruct (nth_error _ _) as [[y [|m]|y]|]; try discriminate; injection E as <-; reflexivity.
  - cbn [active] in I. apply D. clear D. destruct l as [| |i|i]; cbn [step] in E.
    + assert (S1 : snapshots (St t q a c o tk f d) = true).
      { unfold snapshots. cbn [queue active]. destruct q; [|reflexivity]. apply existsb_exists. exists (Computing j k). split; [exact I|reflexivity]. }
      unfold main_step in E. rewrite S1 in E. cbn [todo queue active chan] in E. destruct t as [|[[y| |]| | |] t]; try discriminate; try (injection E as <-; reflexivity).
      * destruct c; injection E as <-; reflexivity.
      * destruct q; [|discriminate]. destruct a; [destruct I|discriminate].
    + cbn [queue active] in E. destruct q as [|x q]; [discriminate|]. destruct (_ <? _); [|discriminate]. injection E as <-. reflexivity.
    + destruct (nth_error _ _) as [[y [|m]|y]|]; try discriminate; [destruct (j_panics y)| |destruct (is_open _)]; injection E as <-; reflexivity.
    + destruct (writing _); [|discriminate]. destruct (nth_error _ _) as [[y [|m]|y]|]; try discriminate; injection E as <-; reflexivity.
Qed.

(** ** Cases *)
(** a change that is applied *)
Example applied : exists s', step 1 (start [Change]) LMain = Some s' /\ changes s' <> changes (start [Change]).
Proof. eexists. split; [reflexivity|discriminate]. Qed.
Definition t_body : list turn := [Spawn (Job 1 2 false); Spawn (Job 2 1 true); Change; Receive; Spawn (Job 3 5 false)].
(** the first job is cut short by the change, the second panics, the third is cut
    short by the end; its result is never looked at *)
Example session : run 2 (start t_body) [LMain; LMain; LStart; LStart; LStep 1; LStep 0; LCut 0; LStep 1; LMain; LStep 0; LMain; LMain; LStart; LCut 0; LMain; LStep 0; LMain; LMain]
  = Some (St [] [] [] [3] false [1] [] [2]).
Proof. vm_compute. reflexivity. Qed.
(** the main thread waits for a queued job *)
Example waiting : step 1 (St (main_thread []) [Job 1 0 false] [] [] true [] [] []) LMain = None.
Proof. reflexivity. Qed.
(** without a worker the process would not end *)
Example no_worker : run 0 (start [Spawn (Job 1 0 false)]) [LMain] = Some (St drop_state [Job 1 0 false] [] [] true [] [] []) /\ complete 0 (St drop_state [Job 1 0 false] [] [] true [] [] []).
Proof. split; [reflexivity|]. intros [| |[|i]|[|i]]; reflexivity. Qed.
Print Assumptions C88_bounded.
Print Assumptions C88_no_deadlock.
Print Assumptions C88_ends.
Print Assumptions C88_no_failed_send.
Print Assumptions C88_every_job.
Print Assumptions C88_lost.
Print Assumptions C88_one_version.
