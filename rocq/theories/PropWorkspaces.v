(** The life of the editor extension: C71 (a server for each folder), C72 (which
    server, when and with what options), C73 (listeners, reloads, failures). *)
From Coq Require Import String.
From Verif Require Import Base BaseProofs Workspaces WorkspacesSpec WorkspacesProofs.
Open Scope nat_scope.

(** * C71: one server for each workspace folder *)

(** No folder gets more servers than there are activations, in any schedule *)
Theorem C71_bounded : forall h st os f ns, run init_state h = Some (st, os) ->
  NoDup ns -> (forall n, In n ns -> nth_error (servers os) n = Some f) -> length ns <= activations os.
Proof.
  intros h st os f ns R ND ALL. pose proof (run_single _ _ _ R) as SI. pose proof (run_tally _ _ _ R) as TA.
  change (activations os) with (facts (concat os)). rewrite <- (ta_acts _ _ TA).
  assert (CL : forall n, In n ns -> exists c, nth_error (clients st) n = Some c /\ c_folder c = f).
  { intros n N. apply ALL in N. change (servers os) with (fservers (concat os)) in N. rewrite <- (ta_servers _ _ TA), nth_error_map in N.
    destruct (nth_error (clients st) n) as [c|]; [|discriminate]. injection N as N. eauto. }
  set (g n := match nth_error (clients st) n with Some c => c_gen c | None => 0 end).
  rewrite <- (map_length g ns), <- (seq_length (length (gens st)) 0). apply NoDup_incl_length.
  - clear ALL. induction ND as [|n ns X ND IH]; [constructor|]. cbn [map]. constructor; [|apply IH; intros m M; apply CL; right; exact M].
    intros I. apply in_map_iff in I as (m & E & M). destruct (CL n (or_introl eq_refl)) as (c & N & F). destruct (CL m (or_intror M)) as (c' & N' & F').
    unfold g in E. rewrite N, N' in E. destruct (SI (c_gen c) f) as [L _]. unfold number in L.
    assert (2 <= cnt (owned (c_gen c) f) (clients st)); [|lia].
    apply (cnt_two _ _ n m c c'); [exact N| |exact N'| |intros ->; contradiction]; unfold owned; rewrite ?F, ?F', ?E, Nat.eqb_refl, text_eqb_refl; reflexivity.
  - intros x X. apply in_map_iff in X as (n & <- & N). destruct (CL n N) as (c & K & _). unfold g. rewrite K. apply in_seq.
    apply (ta_gens _ _ TA) in K. lia.
Qed.

(** Only servers that were started are stopped, and none twice *)
Theorem C71_stops : forall h st os, run init_state h = Some (st, os) ->
  NoDup (stopped os) /\ forall n, In n (stopped os) -> n < length (servers os).
Proof.
  intros h st os R. pose proof (run_tally _ _ _ R) as TA. split; [exact (ta_once _ _ TA)|]. intros n N. apply (ta_known _ _ TA) in N.
  change (servers os) with (fservers (concat os)). rewrite <- (ta_servers _ _ TA), map_length. exact N.
Qed.

(** Where reloads wait for initialisations under way, no folder has two servers *)
Theorem C71_one_at_a_time : forall h st os f n m, quiet h -> run init_state h = Some (st, os) -> runs os f n -> runs os f m -> n = m.
Proof.
  intros h st os f n m Q R A B. pose proof (run_tally _ _ _ R) as TA. pose proof (run_calm _ _ _ Q R) as CA. pose proof (run_single _ _ _ R) as SI.
  apply (runs_spec _ _ f n TA) in A as (c & N & F & AL). apply (runs_spec _ _ f m TA) in B as (c' & N' & F' & AL').
  destruct (Nat.eq_dec n m) as [E|NE]; [exact E|exfalso].
  pose proof (ca_clients _ CA _ _ N AL) as G. pose proof (ca_clients _ CA _ _ N' AL') as G'.
  destruct (SI (pred (length (gens st))) f) as [L _]. unfold number in L.
  assert (2 <= cnt (owned (pred (length (gens st))) f) (clients st)); [|lia].
  apply (cnt_two _ _ n m c c'); [exact N| |exact N'| |exact NE]; unfold owned; rewrite ?F, ?F', ?G, ?G', Nat.eqb_refl, text_eqb_refl; reflexivity.
Qed.
(** ... and a reload stops all that run *)
Theorem C71_reload_stops_all : forall h l st os st' o, quiet (h ++ [l]) -> run init_state h = Some (st, os) -> step st l = Some (st', o) -> In OReloaded o ->
  forall f n, ~ runs (os ++ [o]) f n.
Proof.
  intros h l st os st' o Q R S I f n A. pose proof (run_ended _ _ _ _ _ _ Q R S I) as EN.
  pose proof (run_join _ _ _ _ _ _ _ R (run_one _ _ _ _ S)) as R2. pose proof (run_tally _ _ _ R2) as TA.
  apply (runs_spec _ _ f n TA) in A as (c & N & F & AL). apply EN in N. congruence.
Qed.

(** A folder's document and an initialisation for it, to exhibit cases *)
Definition d1 : doc := Doc (Some (`"/p")) (`"file") (`"/p/a.move") (`"move").
Definition m1 : metadata := Metadata [`"/p/lib"] [[`"/g/a"]; [`"/g/b"]] (`"/p/modules") (`"pont") (`"0x1").
Definition h_start : list label :=
  [LActivate (Some d1); LStat 0 true; LBoot 0 (Some (`"dove", `"ls")); LMeta 0 (IsMetadata m1) None; LMeta 0 (IsMetadata m1) None].
Definition outs (h : list label) : option (list (list output)) := option_map snd (run init_state h).
Example C71_sample : outs (h_start ++ [LSettings true None]) =
  Some [[OActivate]; []; []; [];
        [OStart (`"/p") (`"ls") (`"dove") (Options (`"pont") [`"/p/lib"; `"/g/a"; `"/g/b"; `"/p/modules"] (`"0x1")); OActivated];
        [OReloaded; OStop 0; OActivate; OActivated]].
Proof. vm_compute. reflexivity. Qed.
(** This schedule is quiet: the reload finds all initialisations done *)
Example C71_sample_quiet : quiet (h_start ++ [LSettings true None]).
Proof.
  intros h1 l h2 st os st' o E R S I.
  assert (L : length h1 <= 5) by (apply (f_equal (@length _)) in E; rewrite !app_length in E; cbn in E; lia).
  do 6 (destruct h1 as [|? h1]; [cbn in R; injection R as <- <-; cbn [app] in E; injection E as <- <-; vm_compute in S; injection S as <- <-;
    vm_compute in I; try (exfalso; intuition discriminate); unfold settled; vm_compute; repeat constructor|cbn [app h_start] in E; injection E as <- E]).
  cbn in L. lia.
Qed.

(** A reload overtaking an initialisation strands its server: two run for one
    folder from then on, whatever happens *)
Definition h_overtaken : list label :=
  [LActivate None; LEditor (Some d1); LStat 0 true; LBoot 0 (Some (`"dove", `"ls")); LMeta 0 (IsMetadata m1) None;
   LSettings true (Some d1); LMeta 0 (IsMetadata m1) None;
   LStat 1 true; LBoot 1 (Some (`"dove", `"ls")); LMeta 1 (IsMetadata m1) None; LMeta 1 (IsMetadata m1) None].
Theorem C71_always_one_at_a_time_refuted : exists h st os f, run init_state h = Some (st, os) /\ runs os f 0 /\ runs os f 1 /\
  forall h2 st2 os2, run init_state (h ++ h2) = Some (st2, os2) -> runs os2 f 0.
Proof.
  exists h_overtaken. destruct (run init_state h_overtaken) as [[st os]|] eqn:R; [|vm_compute in R; discriminate].
  exists st, os, (`"/p"). pose proof (run_tally _ _ _ R) as TA. pose proof (run_shape _ _ _ R) as SH.
  assert (SD : stranded 0 (`"/p") st).
  { vm_compute in R. injection R as <- <-. eexists. vm_compute. repeat split. apply le_n. }
  split; [reflexivity|]. split; [|split].
  - vm_compute in R. injection R as <- <-. vm_compute. split; [reflexivity|tauto].
  - vm_compute in R. injection R as <- <-. vm_compute. split; [reflexivity|tauto].
  - intros h2 st2 os2 R2. pose proof (run_tally _ _ _ R2) as TA2. apply run_app in R2 as (st1 & os1 & os3 & RA & RB & _).
    rewrite R in RA. injection RA as <- <-.
    pose proof (stranded_run _ _ _ _ _ _ _ SH SD RB) as (c & N & F & AL & _).
    apply (runs_spec _ _ (`"/p") 0 TA2). eauto.
Qed.

(** * C72: which server is started, when, and with what *)
Theorem C72_why : forall h st os l st' o f server dove op, run init_state h = Some (st, os) -> step st l = Some (st', o) ->
  In (OStart f server dove op) o ->
  exists t m a d t' k k', l = LMeta t (IsMetadata m) a
    /\ op = Options (m_dialect m) (m_local m ++ concat (m_git m) ++ [m_modules m]) (m_address m)
    /\ shown h d /\ d_folder d = Some f /\ move_document d
    /\ In (LStat t true) h /\ In (LBoot t' (Some (dove, server))) h
    /\ nth_error (tasks st) t = Some k /\ nth_error (tasks st) t' = Some k' /\ t_gen k' = t_gen k.
Proof.
  intros h st os l st' o f server dove op R S I. pose proof (run_shape _ _ _ R) as SH. pose proof (run_origin _ _ _ R) as OR.
  destruct (start_cause _ _ _ _ _ _ _ _ _ SH (step_effect _ _ _ _ _ SH S) I) as (t & k & m & a & -> & -> & T & P).
  pose proof (or_tasks _ _ OR _ _ T) as PR. unfold prov in PR. rewrite P in PR.
  destruct PR as (d & [D1 D2] & D3 & D4 & t' & k' & T' & G & B).
  exists t, m, a, d, t', k, k'. repeat (split; [assumption || reflexivity|]). assumption.
Qed.
(** The first Move document of a folder gets it a server, if the manifest is
    there, the binaries can be had and the manifest is valid *)
Theorem C72_opening_starts : forall h st os d f execs m, run init_state h = Some (st, os) -> 0 < activations os ->
  (forall d', shown h d' -> d_folder d' <> Some f) -> move_document d -> d_folder d = Some f ->
  exists t answers st' os' server dove op, Forall (agrees t execs m) answers
    /\ run st (LEditor (Some d) :: answers) = Some (st', os') /\ In (OStart f server dove op) (concat os').
Proof.
  intros h st os d f execs m R A N MD F. pose proof (run_shape _ _ _ R) as SH. pose proof (run_origin _ _ _ R) as OR. pose proof (run_tally _ _ _ R) as TA.
  change (activations os) with (facts (concat os)) in A. rewrite <- (ta_acts _ _ TA) in A.
  assert (GN : gens st <> []) by (intros X; rewrite X in A; cbn in A; lia).
  pose proof (editor_step _ _ _ _ SH GN F) as S.
  set (st1 := add_task _ _) in S.
  destruct (nth_error (gens st) (pred (length (gens st)))) as [fa|] eqn:G; [|apply nth_error_None in G; lia].
  destruct (stat_leads st1 (length (tasks st)) (pred (length (gens st))) false d f execs m fa) as (an & st2 & os2 & sv & dv & FA & R2 & I).
  - cbn. rewrite nth_error_app2, Nat.sub_diag by lia. reflexivity.
  - exact G.
  - intros X. destruct (or_spaces _ _ OR _ _ _ G X) as (d' & D1 & D2). exact (N d' D1 D2).
  - apply is_move_spec. exact MD.
  - exists (length (tasks st)), an, st2, ([] :: os2), sv, dv, (init_options m). split; [exact FA|]. split; [|exact I].
    exact (run_join _ _ _ _ _ _ _ (run_one _ _ _ _ S) R2).
Qed.
(** ... and so does a reload, for the document shown then *)
Theorem C72_reload_starts : forall h st os d f execs m, run init_state h = Some (st, os) -> activated os -> move_document d -> d_folder d = Some f ->
  exists t answers st' os' server dove op, Forall (agrees t execs m) answers
    /\ run st (LReload (Some d) :: answers) = Some (st', os') /\ In (OStart f server dove op) (concat os').
Proof.
  intros h st os d f execs m R A MD F. pose proof (run_shape _ _ _ R) as SH.
  apply (activated_life _ _ _ R) in A. assert (S : exists st1 o, step st (LReload (Some d)) = Some (st1, o)
    /\ nth_error (tasks st1) (length (tasks st)) = Some (Task (length (gens st)) true (WStat d f)) /\ nth_error (gens st1) (length (gens st)) = Some fresh_factory).
  { cbn [step]. destruct (reload_cases _ _ (Some d) SH) as [[_ E]|[X _]]; [|contradiction]. rewrite E. cbv zeta. rewrite activate_cases by reflexivity.
    cbv zeta. cbn [asks gens tasks clients]. rewrite F. cbn [fst snd]. eexists. eexists. split; [reflexivity|]. cbn [tasks gens].
    rewrite !nth_error_app2, !Nat.sub_diag by lia. auto. }
  destruct S as (st1 & o & S & T & G).
  destruct (stat_leads st1 _ _ _ d f execs m _ T G) as (an & st2 & os2 & sv & dv & FA & R2 & I); [intros []|apply is_move_spec; exact MD|].
  exists (length (tasks st)), an, st2, ([o] ++ os2), sv, dv, (init_options m). split; [exact FA|]. split.
  - exact (run_join _ _ _ _ _ _ _ (run_one _ _ _ _ S) R2).
  - rewrite concat_app. apply in_or_app. right. exact I.
Qed.
Example C72_sample_document : move_document d1 /\ d_folder d1 = Some (`"/p") /\ forall d', shown [LActivate None] d' -> d_folder d' <> Some (`"/p").
Proof.
  split; [apply is_move_spec; reflexivity|]. split; [reflexivity|]. intros d' [H|[H|[H|[H|[[b H]|(t & a & H)]]]]]; cbn in H; destruct H as [H|[]]; discriminate.
Qed.
(** A start that failed is not tried again before a reload, whatever is opened
    or saved in the folder *)
Definition h_invalid : list label :=
  [LActivate None; LEditor (Some d1); LStat 0 true; LBoot 0 (Some (`"dove", `"ls")); LMeta 0 (NoMetadata (`"no dialect")) None; LMeta 0 (NoMetadata (`"no dialect")) None].
Theorem C72_starts_retried_refuted : exists h st os f d, run init_state h = Some (st, os) /\ shown h d /\ d_folder d = Some f /\ move_document d /\
  In (OInvalid (`"no dialect")) (concat os) /\
  forall h2 st2 os2 server dove op, run st h2 = Some (st2, os2) -> ~ In OReloaded (concat os2) -> ~ In (OStart f server dove op) (concat os2).
Proof.
  exists h_invalid. destruct (run init_state h_invalid) as [[st os]|] eqn:R; [|vm_compute in R; discriminate]. pose proof (run_shape _ _ _ R) as SH.
  exists st, os, (`"/p"), d1. split; [reflexivity|]. split; [right; left; cbn; auto|]. split; [reflexivity|]. split; [apply is_move_spec; reflexivity|]. split.
  - vm_compute in R. injection R as <- <-. vm_compute. auto.
  - intros h2 st2 os2 server dove op R2 NR. refine (barren_run _ (`"/p") _ _ _ _ SH _ _ R2 NR server dove op).
    + vm_compute in R. injection R as <- <-. discriminate.
    + vm_compute in R. injection R as <- <-. intros [|[|g]] G; cbn in G; try lia. vm_compute. auto.
Qed.

(** * C73: listeners, reloads and failures *)

(** The listeners are those of the last activation, each once *)
Theorem C73_listeners : forall h st os, run init_state h = Some (st, os) ->
  (activations os = 0 -> subs st = []) /\
  forall g, activations os = S g ->
    (activated os -> subs st = all_subs g) /\ (~ activated os -> subs st = [SFactory g; SEditor g; SSaveInit g]).
Proof.
  intros h st os R. pose proof (run_shape _ _ _ R) as SH. pose proof (run_tally _ _ _ R) as TA.
  change (activations os) with (facts (concat os)). rewrite <- (ta_acts _ _ TA). split.
  - intros L. apply length_zero_iff_nil in L. apply (sh_idle _ _ SH) in L. apply (sh_none _ _ SH L).
  - intros g L. rewrite (activated_life _ _ _ R). split.
    + intros A. rewrite (sh_full _ _ SH A), L. reflexivity.
    + intros A. destruct (life_of (concat os)) eqn:E.
      * destruct (sh_idle _ _ SH) as [X _]. rewrite (X eq_refl) in L. discriminate.
      * rewrite (sh_early _ _ SH (or_introl eq_refl)), L. reflexivity.
      * congruence.
      * rewrite (sh_early _ _ SH (or_intror eq_refl)), L. reflexivity.
Qed.
(** The reload command and a change of settings reload the extension exactly when
    its last activation ended well *)
Theorem C73_reload : forall h st os a, run init_state h = Some (st, os) ->
  (exists st' o, step st (LReload a) = Some (st', o) /\ (In OReloaded o /\ In OActivate o <-> activated os) /\ (~ activated os -> st' = st /\ o = []))
  /\ (exists st' o, step st (LSettings true a) = Some (st', o) /\ (In OReloaded o /\ In OActivate o <-> activated os) /\ (~ activated os -> st' = st /\ o = [])).
Proof.
  intros h st os a R. pose proof (run_shape _ _ _ R) as SH. pose proof (activated_life _ _ _ R) as AL.
  assert (RL : exists st' o, reload a st = (st', o) /\ (In OReloaded o /\ In OActivate o <-> life_of (concat os) = Good) /\ (life_of (concat os) <> Good -> st' = st /\ o = [])).
  { destruct (reload_cases _ _ a SH) as [[G E]|[G E]]; rewrite E; cbv zeta.
    - eexists. eexists. split; [reflexivity|]. split; [|contradiction]. split; [intros _; exact G|]. intros _. split; [left; reflexivity|].
      right. apply in_or_app. right. rewrite activate_cases by reflexivity. cbv zeta. destruct (asks a) as [[d f]|]; left; reflexivity.
    - eexists. eexists. split; [reflexivity|]. split; [|auto]. split; [intros [[] _]|contradiction]. }
  split.
  - destruct RL as (st' & o & E & RL). exists st', o. rewrite AL. cbn [step]. rewrite E. auto.
  - cbn [step]. assert (C : life_of (concat os) = Idle \/ (life_of (concat os) = Running \/ life_of (concat os) = Bad) \/ life_of (concat os) = Good)
      by (destruct (life_of (concat os)); auto).
    destruct C as [C|[C|C]].
    + destruct (sh_none _ _ SH C) as (-> & _). exists st, []. rewrite AL. split; [reflexivity|]. split; [|auto]. split; [intros [[] _]|congruence].
    + rewrite (sh_early _ _ SH C), deliver_early. exists st, []. rewrite AL. split; [reflexivity|]. split; [|auto]. split; [intros [[] _]|destruct C; congruence].
    + rewrite (sh_full _ _ SH C), deliver_full. destruct RL as (st' & o & E & RL). exists st', o. rewrite AL, E. auto.
Qed.
(** A manifest that is saved is checked; if valid, the extension is reloaded, and
    if not, its errors are shown *)
Theorem C73_manifest_saved : forall h st os d f, run init_state h = Some (st, os) -> activated os -> d_folder d = Some f -> (exists a, d_path d = a ++ `"Dove.toml") ->
  exists st1 o1, step st (LSave d) = Some (st1, o1) /\ exists t, length (tasks st) <= t /\ forall execs, exists st2, step st1 (LBoot t (Some execs)) = Some (st2, [])
    /\ (forall m a, exists st3 o3, step st2 (LMeta t (IsMetadata m) a) = Some (st3, o3) /\ In OReloaded o3)
    /\ (forall e a, exists st3, step st2 (LMeta t (NoMetadata e) a) = Some (st3, [OInvalid e])).
Proof.
  intros h st os d f R A F P. pose proof (run_shape _ _ _ R) as SH. apply (activated_life _ _ _ R) in A.
  assert (DT : is_dove_toml d = true) by (apply ends_with_spec; exact P).
  cbn [step]. rewrite (sh_full _ _ SH A), deliver_full, DT, (begin_init_some _ _ _ _ F). cbv zeta. cbn [fst snd].
  eexists. eexists. split; [reflexivity|]. cbn [add_task tasks gens subs clients begin_check]. rewrite DT, F.
  exists (length (tasks st ++ [Task (pred (length (gens st))) false (WStat d f)])). split; [rewrite app_length; lia|]. intros execs.
  rewrite nth_error_app2, Nat.sub_diag by lia. cbn [nth_error]. eexists. split; [reflexivity|].
  set (t := length _). set (ts := (tasks st ++ [Task (pred (length (gens st))) false (WStat d f)]) ++ [Task (pred (length (gens st))) false (WCheckBoot f [])]).
  assert (T : nth_error ts t = Some (Task (pred (length (gens st))) false (WCheckBoot f []))) by (unfold ts, t; rewrite nth_error_app2, Nat.sub_diag by lia; reflexivity).
  split.
  - intros m a. cbn [step set_task tasks gens subs clients]. rewrite (nth_update_same _ _ _ _ T).
    match goal with |- context [reload a ?s] =>
      assert (HC : has_command s = true) by (apply (command_life _ _ SH) in A; exact A); destruct (reload a s) as [st3 o3] eqn:E end.
    exists st3, o3. split; [reflexivity|]. unfold reload in E. rewrite HC in E.
    destruct (dispose_all _ _) as [st4 o4]. destruct (activate _ _) as [st5 o5]. injection E as <- <-. left. reflexivity.
  - intros e a. cbn [step set_task tasks gens subs clients]. rewrite (nth_update_same _ _ _ _ T). eexists. reflexivity.
Qed.
(** When files are created or deleted, every manifest among them that is in a
    folder of the workspace is checked, one after the other: the errors of each are
    shown, up to the first valid one, which reloads the extension. *)
Lemma begin_check_manifests files fs : manifests files fs ->
  match fs with
  | [] => begin_check files = WOver
  | f :: fs => exists rest, begin_check files = WCheckBoot f rest /\ manifests rest fs
  end.
Proof.
  induction 1 as [|d f r fs F P M _|d r fs N M IH]; cbn [begin_check]; [reflexivity| |].
  - assert (is_dove_toml d = true) as -> by (apply ends_with_spec; exact P). rewrite F. eauto.
  - destruct (is_dove_toml d) eqn:E; [|exact IH]. apply ends_with_spec in E. destruct N as [-> | N]; [exact IH|contradiction].
Qed.
Lemma run_check t execs a g files fs : forall es st, manifests files fs -> length es <= length fs ->
  nth_error (tasks st) t = Some (Task g false (begin_check files)) ->
  exists st2 os2 files2, run st (invalid_answers t execs a es) = Some (st2, os2) /\ concat os2 = map OInvalid es /\
    manifests files2 (skipn (length es) fs) /\ nth_error (tasks st2) t = Some (Task g false (begin_check files2)) /\ subs st2 = subs st.
Proof.
  intros es. revert files fs. induction es as [|e es IH]; intros files fs st M L T.
  - exists st, [], files. cbn [invalid_answers flat_map run concat map length skipn]. auto.
  - destruct fs as [|f fs]; cbn [length] in L; [lia|]. destruct (begin_check_manifests _ _ M) as (rest & B & M'). rewrite B in T.
    set (st1 := set_task t (Task g false (WCheckMeta f rest)) st). set (st2 := set_task t (Task g false (begin_check rest)) st1).
    assert (T1 : nth_error (tasks st1) t = Some (Task g false (WCheckMeta f rest))) by exact (nth_update_same _ _ _ _ T).
    assert (T2 : nth_error (tasks st2) t = Some (Task g false (begin_check rest))) by exact (nth_update_same _ _ _ _ T1).
    destruct (IH rest fs st2 M' ltac:(lia) T2) as (st3 & os3 & files3 & R & O & M3 & T3 & SB).
    exists st3, ([] :: [OInvalid e] :: os3), files3. unfold invalid_answers in *. cbn [flat_map app run length skipn concat map].
    assert (step st (LBoot t (Some execs)) = Some (st1, [])) as -> by (cbn [step]; rewrite T; reflexivity).
    assert (step st1 (LMeta t (NoMetadata e) a) = Some (st2, [OInvalid e])) as -> by (cbn [step]; rewrite T1; reflexivity).
    rewrite R, O. split; [reflexivity|]. split; [reflexivity|]. split; [exact M3|]. split; [exact T3|exact SB].
Qed.
Theorem C73_manifests_changed : forall h st os deleted files fs, run init_state h = Some (st, os) -> activated os -> manifests files fs ->
  exists st1, step st (LFiles deleted files) = Some (st1, []) /\ let t := length (tasks st) in
  forall execs a es, length es <= length fs ->
  exists st2 os2, run st1 (invalid_answers t execs a es) = Some (st2, os2) /\ concat os2 = map OInvalid es /\
    match nth_error fs (length es) with
    | Some f => (exists k rest, nth_error (tasks st2) t = Some k /\ t_phase k = WCheckBoot f rest) /\
        exists st3, step st2 (LBoot t (Some execs)) = Some (st3, []) /\
        forall m, exists st4 o4, step st3 (LMeta t (IsMetadata m) a) = Some (st4, o4) /\ In OReloaded o4
    | None => step st2 (LBoot t (Some execs)) = None /\ step st2 (LMeta t (NoMetadata []) a) = None
    end.
Proof.
  intros h st os deleted files fs R A M. pose proof (run_shape _ _ _ R) as SH. apply (activated_life _ _ _ R) in A.
  cbn [step]. rewrite (sh_full _ _ SH A), deliver_full. eexists. split; [reflexivity|]. cbv zeta. intros execs a es L.
  set (st1 := add_task _ st). assert (T : nth_error (tasks st1) (length (tasks st)) = Some (Task (pred (length (gens st))) false (begin_check files))).
  { unfold st1. cbn [add_task tasks]. rewrite nth_error_app2, Nat.sub_diag by lia. reflexivity. }
  destruct (run_check (length (tasks st)) execs a _ files fs es st1 M L T) as (st2 & os2 & files2 & R2 & O2 & M2 & T2 & SB).
  exists st2, os2. split; [exact R2|]. split; [exact O2|]. apply begin_check_manifests in M2.
  assert (N : nth_error fs (length es) = hd_error (skipn (length es) fs)).
  { clear. generalize (length es) as n. intros n. revert fs. induction n as [|n IH]; intros [|f fs]; cbn; auto. }
  rewrite N. destruct (skipn (length es) fs) as [|f fs']; cbn [hd_error].
  - rewrite M2 in T2. cbn [step]. rewrite T2. auto.
  - destruct M2 as (rest & B & _). rewrite B in T2. split; [do 2 eexists; split; [exact T2|reflexivity]|].
    eexists. split; [cbn [step]; rewrite T2; reflexivity|]. intros m. cbn [step].
    cbn [set_task tasks gens subs clients]. rewrite (nth_update_same _ _ _ _ T2).
    match goal with |- context [reload a ?s] =>
      assert (HC : has_command s = true) by
        (apply (command_life _ _ SH) in A; unfold has_command in *; cbn [set_task subs] in *; rewrite SB; exact A);
      destruct (reload a s) as [st3 o3] eqn:E end.
    exists st3, o3. split; [reflexivity|]. unfold reload in E. rewrite HC in E.
    destruct (dispose_all _ _) as [st4 o4]. destruct (activate _ _) as [st5 o5]. injection E as <- <-. left. reflexivity.
Qed.
Example two_manifests : manifests [Doc (Some (`"/p")) (`"file") (`"/p/Dove.toml") (`"toml"); Doc (Some (`"/p")) (`"file") (`"/p/a.move") (`"move");
  Doc (Some (`"/q")) (`"file") (`"/q/Dove.toml") (`"toml")] [`"/p"; `"/q"].
Proof.
  apply man_here; [reflexivity|exists (`"/p/"); reflexivity|]. apply man_other.
  - right. intros (x & E). apply (f_equal (@rev N)) in E. rewrite rev_app_distr in E. cbn in E. discriminate E.
  - apply man_here; [reflexivity|exists (`"/q/"); reflexivity|]. constructor.
Qed.
(** An activation fails only if the binaries cannot be had or the metadata cannot
    be read, for the document it began with *)
Theorem C73_why_failed : forall h st os l st' o, run init_state h = Some (st, os) -> step st l = Some (st', o) -> In OActivationFailed o ->
  exists t k, nth_error (tasks st) t = Some k /\ t_activates k = true /\ (l = LBoot t None \/ exists a, l = LMeta t BadJson a).
Proof.
  intros h st os l st' o R S I. pose proof (run_shape _ _ _ R) as SH. eapply failure_cause; [exact SH|eapply step_effect; eassumption|exact I].
Qed.
(** ... and ends only once *)
Theorem C73_ends_once : forall h st os a b c x y, run init_state h = Some (st, os) -> concat os = a ++ x :: b ++ y :: c ->
  (x = OActivated \/ x = OActivationFailed) -> (y = OActivated \/ y = OActivationFailed) -> In OActivate b.
Proof.
  intros h st os a b c x y R E X Y. pose proof (run_orderly _ _ _ R) as O. rewrite E in O. apply orderly_app in O as [_ O]. cbn [orderly] in O. destruct O as (_ & _ & O).
  apply orderly_app in O as [O1 O2]. cbn [orderly] in O2. destruct O2 as (Y2 & _ & _).
  destruct (in_dec (fun u v : bool => bool_dec u v) true (map (fun o => match o with OActivate => true | _ => false end) b)) as [I|N].
  - apply in_map_iff in I as (o & Q & I). destruct o; try discriminate. exact I.
  - exfalso. assert (NA : ~ In OActivate b).
    { intros I. apply N. apply in_map_iff. exists OActivate. auto. }
    set (s := lives _ x) in *. assert (G : s = Good \/ s = Bad) by (unfold s; destruct X as [-> | ->]; auto).
    rewrite (orderly_kept s b O1 G NA) in Y2. assert (s = Running) by (apply Y2; destruct Y as [-> | ->]; reflexivity). destruct G; congruence.
Qed.
(** After a failed activation nothing brings the extension back *)
Theorem C73_failed_is_final : forall h st os h2 st2 os2, run init_state h = Some (st, os) -> failed os -> run st h2 = Some (st2, os2) ->
  ~ In OReloaded (concat os2) /\ ~ In OActivate (concat os2).
Proof.
  intros h st os h2 st2 os2 R F R2. pose proof (run_shape _ _ _ R) as SH. apply (failed_life _ _ _ R) in F. rewrite F in SH. eapply dead_run; eassumption.
Qed.
Definition h_failed : list label := [LActivate (Some d1); LStat 0 true; LBoot 0 None].
(** so the user cannot always reload *)
Theorem C73_can_always_reload_refuted : exists h st os, run init_state h = Some (st, os) /\ 0 < activations os /\
  forall h2 st2 os2, run st h2 = Some (st2, os2) -> ~ In OReloaded (concat os2).
Proof.
  exists h_failed. destruct (run init_state h_failed) as [[st os]|] eqn:R; [|vm_compute in R; discriminate].
  exists st, os. split; [reflexivity|]. assert (C : os = [[OActivate]; []; [OActivationFailed]]) by (vm_compute in R; injection R as _ <-; reflexivity).
  split; [rewrite C; cbn; lia|]. intros h2 st2 os2 R2. eapply C73_failed_is_final; [exact R| |exact R2].
  rewrite C. exists [OActivate], []. split; [reflexivity|intros []].
Qed.
Example C73_sample : exists st os, run init_state h_start = Some (st, os) /\ activated os /\ subs st = all_subs 0.
Proof.
  destruct (run init_state h_start) as [[st os]|] eqn:R; [|vm_compute in R; discriminate]. exists st, os. split; [reflexivity|].
  vm_compute in R. injection R as <- <-. split; [|reflexivity].
  exists [OActivate; OStart (`"/p") (`"ls") (`"dove") (init_options m1)], []. split; [reflexivity|intros []].
Qed.

Print Assumptions C71_bounded.
Print Assumptions C71_stops.
Print Assumptions C71_one_at_a_time.
Print Assumptions C71_reload_stops_all.
Print Assumptions C71_always_one_at_a_time_refuted.
Print Assumptions C72_why.
Print Assumptions C72_opening_starts.
Print Assumptions C72_reload_starts.
Print Assumptions C72_starts_retried_refuted.
Print Assumptions C73_listeners.
Print Assumptions C73_reload.
Print Assumptions C73_manifest_saved.
Print Assumptions C73_manifests_changed.
Print Assumptions C73_why_failed.
Print Assumptions C73_ends_once.
Print Assumptions C73_failed_is_final.
Print Assumptions C73_can_always_reload_refuted.
