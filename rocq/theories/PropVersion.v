(** C85: the version a server reports. *)
From Coq Require Import String.
From Verif Require Import Base Version VersionSpec VersionProofs.
Local Open Scope N_scope.

(** The first build has the version that is right at that moment. *)
Theorem C85_first_build : forall manifest top s, inside manifest top -> fresh s ->
  exists v, version (step manifest top s Build) = Some v /\ right_now s v.
Proof.
  intros m t s I (K & G). unfold version. cbn [step s_kept]. rewrite K. cbn [build k_out]. rewrite (script_eq m t s I). cbn [rev_of].
  eexists. split; [reflexivity|]. apply right_revision. exact G.
Qed.
(** In every history the version of a server was right at one of the builds, and
    no build after that has found another value of the variable or a file
    .git/HEAD that had been written since. *)
Theorem C85_right_at_some_build : forall manifest top s es v, inside manifest top -> fresh s -> Forall good_event es ->
  version (run manifest top s es) = Some v ->
  exists before after, es = before ++ Build :: after /\ right_now (run manifest top s before) v /\
    forall a b, after = a ++ Build :: b ->
      let then_ := run manifest top s before in let later := run manifest top s (before ++ Build :: a) in
      variable then_ (`"MOVE_LANGUAGE_SERVER_REV") = variable later (`"MOVE_LANGUAGE_SERVER_REV") /\ s_writes then_ = s_writes later.
Proof.
  intros m t s es v I (K & G) F V. unfold version in V. destruct (s_kept (run m t s es)) as [k|] eqn:E; [|discriminate].
  destruct (kept_from m t s es k I K E) as (es1 & es2 & E1 & -> & H). exists es1, es2. split; [exact E1|]. split; [|exact H].
  cbn [k_out] in V. rewrite (script_eq m t _ I) in V. cbn [rev_of] in V. injection V as <-. apply right_revision. apply good_run; [exact G|].
  rewrite E1, Forall_app in F. apply F.
Qed.
(** ** The commit *)
(** The version should begin with the commit the server was built from.  This
    holds if commits are made only while HEAD is detached. *)
Theorem C85_names_the_commit_partial : forall manifest top s es c, inside manifest top -> fresh s -> Forall good_event es ->
  (forall a c b, es = a ++ Commit c :: b -> exists c', s_head (run manifest top s a) = Detached c') ->
  variable (run manifest top s es) (`"MOVE_LANGUAGE_SERVER_REV") = None -> current (run manifest top s es) = Some c ->
  exists rest, version (run manifest top s (es ++ [Build])) = Some (c ++ `" " ++ rest).
Proof.
  intros m t s es c I Fr F C Vr Cu.
  assert (X : exists v, version (run m t s (es ++ [Build])) = Some v).
  { destruct Fr as [K _]. rewrite run_app. cbn [run fold_left]. fold (run m t s es). unfold version. cbn [step s_kept]. unfold build.
    destruct (s_kept (run m t s es)) as [k|] eqn:E.
    - destruct (kept_from m t s es k I K E) as (es1 & es2 & _ & -> & _). cbn [k_out k_world]. destruct (existsb _ _); cbn [k_out]; rewrite (script_eq m t _ I); cbn [rev_of]; eexists; reflexivity.
    - cbn [k_out]. rewrite (script_eq m t _ I). cbn [rev_of]. eexists. reflexivity. }
  destruct X as [v V]. rewrite V.
  assert (F' : Forall good_event (es ++ [Build])) by (apply Forall_app; split; [exact F|repeat constructor]).
  destruct (C85_right_at_some_build m t s _ v I Fr F' V) as (es1 & es2 & E & R & H). cbv zeta in H.
  assert (Y : variable (run m t s es1) (`"MOVE_LANGUAGE_SERVER_REV") = None /\ current (run m t s es1) = Some c).
  { induction es2 as [|y es2 _] using rev_ind.
    - apply app_inj_tail in E as [<- _]. auto.
    - rewrite app_comm_cons, app_assoc in E. apply app_inj_tail in E as [E <-]. destruct (H es2 [] eq_refl) as [A B]. rewrite <- E in A, B.
      split; [congruence|]. rewrite <- Cu. symmetry. rewrite E, run_app. apply careful_current.
      + intros a c0 b Ea. destruct (C (es1 ++ a) c0 b) as [c' Hc]; [rewrite E, Ea, app_assoc; reflexivity|]. exists c'. rewrite <- run_app. exact Hc.
      + rewrite <- run_app, <- E. symmetry. exact B. }
  destruct Y as [A B]. unfold right_now, right in R. rewrite A, B in R. subst v. eauto.
Qed.
(** Whatever happened before, a build directly behind a switch is right, and a
    version asked for is always the one reported. *)
Lemma built_last m t s es : inside m t -> fresh s -> Forall good_event es -> exists v es1, version (run m t s (es ++ [Build])) = Some v /\ right_now (run m t s es1) v /\
  (exists es2, es = es1 ++ es2) /\ variable (run m t s es1) (`"MOVE_LANGUAGE_SERVER_REV") = variable (run m t s es) (`"MOVE_LANGUAGE_SERVER_REV") /\
  s_writes (run m t s es1) = s_writes (run m t s es).
Proof.
  intros I Fr F.
  assert (X : exists v, version (run m t s (es ++ [Build])) = Some v).
  { destruct Fr as [K _]. rewrite run_app. cbn [run fold_left]. fold (run m t s es). unfold version. cbn [step s_kept]. unfold build.
    destruct (s_kept (run m t s es)) as [k|] eqn:E.
    - destruct (kept_from m t s es k I K E) as (es1 & es2 & _ & -> & _). cbn [k_out k_world]. destruct (existsb _ _); cbn [k_out]; rewrite (script_eq m t _ I); cbn [rev_of]; eexists; reflexivity.
    - cbn [k_out]. rewrite (script_eq m t _ I). cbn [rev_of]. eexists. reflexivity. }
  destruct X as [v V]. assert (F' : Forall good_event (es ++ [Build])) by (apply Forall_app; split; [exact F|repeat constructor]).
  destruct (C85_right_at_some_build m t s _ v I Fr F' V) as (es1 & es2 & E & R & H). cbv zeta in H. exists v, es1. split; [exact V|]. split; [exact R|].
  induction es2 as [|y es2 _] using rev_ind.
  - apply app_inj_tail in E as [<- _]. split; [exists []; rewrite app_nil_r; reflexivity|auto].
  - rewrite app_comm_cons, app_assoc in E. apply app_inj_tail in E as [E <-]. destruct (H es2 [] eq_refl) as [A B]. rewrite <- E in A, B. split; [eauto|auto].
Qed.
Theorem C85_switching_repairs : forall manifest top s es e, inside manifest top -> fresh s -> Forall good_event (es ++ [e]) ->
  (exists b, e = Switch b) \/ (exists c, e = Detach c) ->
  exists v, version (run manifest top s (es ++ [e; Build])) = Some v /\ right_now (run manifest top s (es ++ [e])) v.
Proof.
  intros m t s es e I Fr F K. destruct (built_last m t s (es ++ [e]) I Fr F) as (v & es1 & V & R & [es2 E] & _ & W). exists v.
  rewrite <- app_assoc in V. split; [exact V|]. induction es2 as [|y es2 _] using rev_ind; [rewrite app_nil_r in E; rewrite E; exact R|]. exfalso.
  rewrite app_assoc in E. apply app_inj_tail in E as [-> <-]. rewrite !run_app in W.
  pose proof (run_writes m t es2 (run m t s es1)) as L. set (s1 := run m t (run m t s es1) es2) in *.
  destruct K as [[b ->]|[c ->]]; cbn [run fold_left step s_writes] in W; lia.
Qed.
Theorem C85_asked_for : forall manifest top s es x, inside manifest top -> fresh s -> Forall good_event es ->
  variable (run manifest top s es) (`"MOVE_LANGUAGE_SERVER_REV") = Some x -> version (run manifest top s (es ++ [Build])) = Some x.
Proof.
  intros m t s es x I Fr F X. destruct (built_last m t s es I Fr F) as (v & es1 & V & R & _ & A & _). rewrite V. f_equal.
  unfold right_now, right in R. rewrite A, X in R. exact R.
Qed.
(** The commit named is not always the right one: after a commit on a branch the server is built
    with the version of the commit before. *)
Definition t_top : list text := [`"repo"].
Definition t_manifest : list text := [`"move_language_server"; `"crates"; `"repo"].
Definition t_start : state := St (Branch (`"master")) 0 [(`"master", `"aaa1111")] [] (`"2021-10-01") None.
Theorem C85_names_the_commit_refuted :
  ~ forall manifest top s es c, inside manifest top -> fresh s -> Forall good_event es ->
      variable (run manifest top s es) (`"MOVE_LANGUAGE_SERVER_REV") = None -> current (run manifest top s es) = Some c ->
      exists rest, version (run manifest top s (es ++ [Build])) = Some (c ++ `" " ++ rest).
Proof.
  intros X. destruct (X t_manifest t_top t_start [Build; Commit (`"bbb2222")] (`"bbb2222")) as [rest H].
  - split; [discriminate|]. exists [`"move_language_server"; `"crates"]. reflexivity.
  - split; [reflexivity|]. repeat split; try discriminate; repeat constructor; cbn; try discriminate.
  - repeat constructor; cbn; try discriminate.
  - reflexivity.
  - reflexivity.
  - vm_compute in H. discriminate.
Qed.

(** ** What is watched: .git/HEAD of the innermost directory that has one, but
    never the one in the root of the file system *)
Theorem C85_watched : forall manifest w,
  match script manifest w with
  | [RerunIfEnvChanged v; RerunIfHeadChanged d; RustcEnv r _] =>
      v = `"MOVE_LANGUAGE_SERVER_REV" /\ r = `"REV" /\ d <> [] /\ w_heads w d <> None /\
      exists sub, manifest = sub ++ d /\ forall a b, sub = a ++ b -> b <> [] -> w_heads w (b ++ d) = None
  | [RerunIfEnvChanged v; Warning; RustcEnv r _] =>
      v = `"MOVE_LANGUAGE_SERVER_REV" /\ r = `"REV" /\ forall a d, manifest = a ++ d -> d <> [] -> w_heads w d = None
  | _ => False
  end.
Proof.
  intros m w. unfold script, set_rerun. pose proof (head_ref_spec (fun d => match w_heads w d with Some _ => true | None => false end) m) as H. cbv beta in H.
  destruct (head_ref _ m) as [d|]; cbn [app].
  - destruct H as (N & E & sub & -> & F). split; [reflexivity|]. split; [reflexivity|]. split; [exact N|]. split; [destruct (w_heads w d); [discriminate|discriminate E]|].
    exists sub. split; [reflexivity|]. intros a b Es Nb. specialize (F a b Es Nb). destruct (w_heads w (b ++ d)); [discriminate|reflexivity].
  - split; [reflexivity|]. split; [reflexivity|]. intros a d E N. specialize (H a d E N). destruct (w_heads w d); [discriminate|reflexivity].
Qed.

(** *** The theorems are not about nothing *)
Example start_fresh : inside t_manifest t_top /\ fresh t_start.
Proof.
  split; [split; [discriminate|exists [`"move_language_server"; `"crates"]; reflexivity]|].
  split; [reflexivity|]. repeat split; try discriminate; repeat constructor; cbn; try discriminate.
Qed.
Example first : version (step t_manifest t_top t_start Build) = Some (`"aaa1111 2021-10-01 dev").
Proof. vm_compute. reflexivity. Qed.
(** a branch with a commit, a switch, a commit with detached HEAD *)
Example switched : version (run t_manifest t_top t_start [Build; Detach (`"ccc3333"); Day (`"2021-10-02"); Commit (`"ddd4444"); Build]) = Some (`"ddd4444 2021-10-02 dev").
Proof. vm_compute. reflexivity. Qed.
Example stale : version (run t_manifest t_top t_start [Build; Commit (`"bbb2222"); Build]) = Some (`"aaa1111 2021-10-01 dev").
Proof. vm_compute. reflexivity. Qed.
(** a channel set after the first build has no effect *)
Example stale_channel : version (run t_manifest t_top t_start [Build; SetVar (`"MOVE_LANGUAGE_SERVER_CHANNEL") (Some (`"nightly")); Build]) = Some (`"aaa1111 2021-10-01 dev").
Proof. vm_compute. reflexivity. Qed.
Example asked_for : version (run t_manifest t_top t_start [Build; SetVar (`"MOVE_LANGUAGE_SERVER_REV") (Some (`"1.0")); Build]) = Some (`"1.0").
Proof. vm_compute. reflexivity. Qed.
Print Assumptions C85_first_build.
Print Assumptions C85_right_at_some_build.
Print Assumptions C85_names_the_commit_partial.
Print Assumptions C85_names_the_commit_refuted.
Print Assumptions C85_switching_repairs.
Print Assumptions C85_asked_for.
Print Assumptions C85_watched.
