(** Property C57: published diagnostics are those of a text the document had;
    and what remains true of C47 and C43. *)
From Coq Require Import String Permutation Sorted.
From Verif Require Import Base BaseProofs Utf8 Utf8Proofs LineIndex LineEndings LineEndingsProofs Vfs VfsSpec VfsProofs FileSet
  DocChanges GreenSpec Sink Database DatabaseProofs Diagnostics Server ServerSpec ServerInv ServerRun ServerTheorems DiagSpec DiagProofs
  DiagRun PastSpec PastProofs PropServer PropDiag.
Local Open Scope N_scope.

(** ** C57 *)
(** Whatever the schedule, and however the run ends: the diagnostics in a
    publication are those of a text the document had at some moment. *)
Theorem C57_diagnostics_are_of_a_text_it_had : forall ho c did_save ls out e u v ds,
  buildable c -> valid_labels ls -> serve ho c did_save ls = (out, e) -> In (OPublish u v ds) out ->
  exists comps k, u = UFile comps /\ told_at ho c did_save ls k comps ds.
Proof.
  intros ho c did_save ls out e u v ds Hc V H Hin.
  assert (U : exists comps, u = UFile comps).
  { destruct (session ho c did_save ls out e Hc V H) as (o & -> & hd & rest & s' & _ & _ & _ & _ & _ & _ & _ & P & _).
    apply in_app_iff in Hin as [Hin|Hin]; [destruct did_save; cbn in Hin; [destruct Hin as [X|[]]; discriminate|destruct Hin]|].
    destruct (P _ _ _ Hin) as (comps & -> & _). eauto. }
  destruct U as [comps ->]. destruct (past_serve ho False c did_save ls out e Hc V ltac:(tauto) H comps) as (ks & F & _).
  apply publications_In in Hin. destruct (Forall2_In_l _ _ _ _ F Hin) as (k & _ & T). exists comps, k. auto.
Qed.
(** If results are delivered in order, the texts behind the publications for a
    document never go back in time. *)
Theorem C57_in_order_never_back : forall ho c did_save ls out e comps,
  buildable c -> valid_labels ls -> Forall in_order ls -> serve ho c did_save ls = (out, e) ->
  exists moments, Forall2 (fun p k => told_at ho c did_save ls k comps (snd p)) (publications comps out) moments /\
    StronglySorted le moments.
Proof.
  intros ho c did_save ls out e comps Hc V O H.
  destruct (past_serve ho True c did_save ls out e Hc V (fun _ => O) H comps) as (ks & F & S). exists ks. auto.
Qed.
(** without that they may: [overtaken] of PropDiag.v *)

(** A document that was never opened gets no diagnostics. *)
Theorem C57_unopened_documents_get_none : forall ho c did_save ls out e comps v ds,
  buildable c -> valid_labels ls -> serve ho c did_save ls = (out, e) ->
  Forall (fun m => ~ opens_doc comps m) (messages ls) -> ~ In (OPublish (UFile comps) v ds) out.
Proof.
  intros ho c did_save ls out e comps v ds Hc V H NO Hin. destruct (serve_run ho c did_save ls out e H) as (out' & Hr & ->).
  destruct (inv_start c did_save Hc) as [I0 Q0]. destruct (start_fifo c did_save) as (Y & _ & _).
  assert (C : clear_of (fst (start c did_save)) comps).
  { split; [destruct did_save; reflexivity|]. intros id Hk. destruct did_save; (split; [intros j []|intros []]). }
  pose proof (clear_run ho ls _ _ _ comps I0 Q0 Y V NO C Hr) as P. apply in_app_iff in Hin as [Hin|Hin].
  - destruct did_save; cbn in Hin; [destruct Hin as [X|[]]; discriminate|destruct Hin].
  - apply publications_In in Hin. rewrite P in Hin. destruct Hin.
Qed.

(** ** C47, what holds: once a document is closed and the work under way is
    done, nothing is published for it until it is opened again. *)
Theorem C47_silence_after_closing_partial : forall ho c did_save ls more out s out' e comps,
  buildable c -> valid_labels (ls ++ more) -> serve ho c did_save ls = (out, Alive s) -> settled s -> not_open s comps ->
  Forall (fun m => ~ opens_doc comps m) (messages more) ->
  serve ho c did_save (ls ++ more) = (out', e) ->
  publications comps out' = publications comps out.
Proof.
  intros ho c did_save ls more out s out' e comps Hc V H [S1 S2] N NO H'.
  unfold valid_labels in V. rewrite messages_app in V. apply Forall_app in V as [V1 V2].
  destruct (serve_run ho c did_save ls out _ H) as (o1 & Hr & ->). destruct (serve_run ho c did_save _ out' _ H') as (o2 & Hr' & ->).
  destruct (inv_start c did_save Hc) as [I0 Q0]. destruct (session_alive ho c did_save _ _ _ Hc V1 H) as [I Q].
  assert (Y : tidy s).
  { destruct (start_past False c did_save) as [ke P0].
    assert (G : forall ls0 s0 o0 out0 hist kd kj ke0, inv s0 -> quiet s0 -> valid_labels ls0 -> past False hist s0 out0 kd kj ke0 ->
      run ho s0 ls0 = (o0, Alive s) -> tidy s).
    { clear. induction ls0 as [|l ls0 IH]; intros s0 o0 out0 hist kd kj ke0 I Q V P R; cbn [run] in R; [injection R as _ <-; apply P|].
      unfold valid_labels, messages in V. cbn [flat_map] in V. apply Forall_app in V as [V1 V2].
      pose proof (step_spec ho s0 l I Q V1) as K. destruct (step ho s0 l) as [s1 o1| | |w|] eqn:Es; try discriminate.
      destruct (run ho s1 ls0) as [o2 e2] eqn:Er. injection R as _ ->.
      destruct (past_step ho False hist s0 out0 kd kj ke0 l s1 o1 I Q V1 ltac:(tauto) P Es) as (a & b & d & P1).
      exact (IH s1 _ _ _ _ _ _ (k_inv _ _ _ _ K) (k_quiet _ _ _ _ K) V2 P1 Er). }
    exact (G ls _ _ _ _ _ _ _ I0 Q0 V1 P0 Hr). }
  rewrite (run_app ho _ _ more _ _ Hr) in Hr'. destruct (run ho s more) as [o3 e3] eqn:Em. cbn [fst snd] in Hr'. injection Hr' as <- <-.
  rewrite !publications_app. rewrite (clear_run ho more s o3 e3 comps I Q Y V2 NO); [rewrite app_nil_r; reflexivity| |exact Em].
  split; [exact N|]. intros id _. rewrite S1, S2. split; [intros j []|intros []].
Qed.

(** ** C43, what holds *)
(** The diagnostics of a file, if there are any, depend on its own text only. *)
Theorem C43_own_text_only_partial : forall endings endings' j j' cut cut' l l' id id' ds ds',
  job_run endings j cut = [TDiagnostics l] -> job_run endings' j' cut' = [TDiagnostics l'] ->
  In (id, ds) l -> In (id', ds') l' -> file_text (jb_db j) id = file_text (jb_db j') id' -> ds = ds'.
Proof.
  intros e e' j j' cut cut' l l' id id' ds ds' H H' Hin Hin' E.
  assert (G : forall e j cut l id ds, job_run e j cut = [TDiagnostics l] -> In (id, ds) l ->
    (let! t := file_text (jb_db j) id in let! li := li_new t in
     let! x := (let! (_, errs) := source_file_parse t in Ok (map (fun e => (`"Syntax Error: " ++ se_msg e, se_pos e)) (firstn 128 errs))) in
     map_res (to_lsp li) x) = Ok ds).
  { clear. intros e j cut l id ds H Hin. unfold job_run in H. destruct (job_files e (jb_db j) (jb_files j) cut) as [r| |] eqn:E; try discriminate.
    injection H as ->. pose proof (job_files_In _ _ _ _ _ E id ds Hin) as P. unfold publish_diagnostics in P.
    destruct (index _); cbn [bind] in P; try discriminate. unfold file_diagnostics in P. destruct (file_text (jb_db j) id); cbn [bind] in *; try discriminate. exact P. }
  pose proof (G _ _ _ _ _ _ H Hin) as P. pose proof (G _ _ _ _ _ _ H' Hin') as P'. rewrite <- E in P'. congruence.
Qed.
(** A job that is not cut short has a result for each of its files, or none at
    all; none exactly if one of its files cannot be dealt with. *)
Definition hopeless (t : text) : Prop := u32_bound <= tlen t \/ forall g errs, source_file_parse t <> Ok (g, errs).
Theorem C43_all_or_nothing_partial : forall ho c did_save ls out s j,
  buildable c -> valid_labels ls -> serve ho c did_save ls = (out, Alive s) -> In j (s_jobs s) ->
  (exists l, job_run (s_endings s) j (length (jb_files j)) = [TDiagnostics l] /\ map fst l = jb_files j /\
     forall id, In id (jb_files j) -> exists t, file_text (jb_db j) id = Ok t /\ ~ hopeless t) \/
  (job_run (s_endings s) j (length (jb_files j)) = [] /\
     exists id t, In id (jb_files j) /\ file_text (jb_db j) id = Ok t /\ hopeless t).
Proof.
  intros ho c did_save ls out s j Hc V H Hj. destruct (session_alive ho c did_save _ _ _ Hc V H) as [I Q].
  pose proof (fun id => m_jobs _ _ _ _ _ _ _ _ _ (proj1 I) j id Hj) as J. unfold job_run.
  assert (G : forall files, (forall id, In id files -> alookup N.eqb id (db_text (jb_db j)) <> None /\ alookup N.eqb id (s_endings s) <> None) ->
    (exists l, job_files (s_endings s) (jb_db j) files (length files) = Ok l /\ map fst l = files /\
       forall id, In id files -> exists t, file_text (jb_db j) id = Ok t /\ ~ hopeless t) \/
    ((forall l, job_files (s_endings s) (jb_db j) files (length files) <> Ok l) /\
       exists id t, In id files /\ file_text (jb_db j) id = Ok t /\ hopeless t)).
  { clear J. induction files as [|id files IH]; intros J; cbn [job_files length].
    - left. exists []. split; [reflexivity|]. split; [reflexivity|]. intros id [].
    - destruct (J id (or_introl eq_refl)) as [J1 J2].
      assert (T : exists t, file_text (jb_db j) id = Ok t).
      { unfold file_text. destruct (alookup N.eqb id (db_text (jb_db j))) as [t|]; [exists t; reflexivity|contradiction]. }
      destruct T as [t T]. destruct (publish_diagnostics (s_endings s) (jb_db j) id) as [ds|w|] eqn:P; cbn [bind].
      + assert (Hope : ~ hopeless t).
        { pose proof (published_text _ _ _ _ _ T P) as (g & errs & Hp & _). intros [X|X]; [|eapply X; eauto].
          unfold publish_diagnostics in P. destruct (index _); cbn [bind] in P; try discriminate. rewrite T in P. cbn [bind] in P.
          unfold li_new in P. rewrite (proj2 (N.ltb_ge _ _) X) in P. discriminate. }
        destruct (IH (fun i Hi => J i (or_intror Hi))) as [(l & L1 & L2 & L3)|(L1 & i & t' & L2 & L3)].
        * left. exists ((id, ds) :: l). rewrite L1. cbn [bind map fst]. split; [reflexivity|]. split; [rewrite L2; reflexivity|].
          intros i [<-|Hi]; [eauto|auto].
        * right. split; [|exists i, t'; split; [right; exact L2|exact L3]]. intros l.
          destruct (job_files _ _ files _) as [r| |]; cbn [bind]; [exfalso; eapply L1; reflexivity|discriminate..].
      + right. split; [discriminate|]. exists id, t. split; [left; reflexivity|]. split; [exact T|].
        destruct (N.ltb_spec (tlen t) u32_bound) as [Lt|Ge]; [|left; exact Ge]. right. intros g errs Hp.
        pose proof (publish_diagnostics_spec _ _ _ _ J2 T Lt) as X. rewrite Hp in X. destruct X as (ds & X & _). congruence.
      + right. split; [discriminate|]. exists id, t. split; [left; reflexivity|]. split; [exact T|].
        destruct (N.ltb_spec (tlen t) u32_bound) as [Lt|Ge]; [|left; exact Ge]. right. intros g errs Hp.
        pose proof (publish_diagnostics_spec _ _ _ _ J2 T Lt) as X. rewrite Hp in X. destruct X as (ds & X & _). congruence. }
  destruct (G (jb_files j) J) as [(l & L1 & L2 & L3)|(L1 & L2)].
  - left. exists l. rewrite L1. auto.
  - right. split; [|exact L2]. destruct (job_files _ _ _ _) as [l| |]; [exfalso; eapply L1; reflexivity|reflexivity..].
Qed.

(** ** C46, what holds: for a client that waits before it touches a document
    again, the version sent is that of the text diagnosed, which is the text
    the document has. *)
Theorem C46_patient_clients_partial : forall ho c did_save ls l out s s' out' comps v ds,
  buildable c -> valid_labels (ls ++ [l]) -> patient ho c did_save (ls ++ [l]) ->
  serve ho c did_save ls = (out, Alive s) -> step ho s l = Continue s' out' ->
  In (OPublish (UFile comps) v ds) out' ->
  exists ver t, v = Some ver /\ holds s' comps ver t /\ scalars t /\ diagnoses Utf8 (crlf_to_lf t) ds.
Proof.
  intros ho c did_save ls l out s s' out' comps v ds Hc V P H Es Hin.
  unfold valid_labels in V. rewrite messages_app in V. apply Forall_app in V as [V1 V2].
  destruct (serve_run ho c did_save ls out _ H) as (o & Hr & _). destruct (inv_start c did_save Hc) as [I0 Q0]. destruct (start_fifo c did_save) as (Y0 & _ & _).
  destruct (session_alive ho c did_save _ _ _ Hc V1 H) as [I Q].
  assert (F : fresh s /\ tidy s).
  { eapply (patient_run ho c did_save ls [] _ (snd (start c did_save) ++ [])); [exact Hc| |exact I0|exact Q0|exact Y0| |exact V1| |exact Hr].
    - unfold serve. destruct (start c did_save). reflexivity.
    - split; [destruct did_save; intros j []|destruct did_save; intros l0 id ds0 []].
    - intros before m cuts after comps0 out0 s0 E. apply (P before m cuts (after ++ [l]) comps0 out0 s0). cbn [app] in E. rewrite E, <- app_assoc. reflexivity. }
  destruct F as [F Y]. cbn [messages flat_map] in V2. rewrite app_nil_r in V2.
  destruct (fresh_step ho s l s' out' I Q Y V2) as (_ & _ & K); auto.
  - intros m comps0 Hm Ha. destruct l as [m' cuts| | |]; cbn [label_messages] in Hm; [|destruct Hm..]. destruct Hm as [<-|[]].
    exact (P ls m' cuts [] comps0 out s eq_refl Ha H).
  - apply publications_In in Hin. eauto.
Qed.

(** ** The hypotheses are met *)
(** a file opened with a mistake, corrected, and closed *)
Definition in_and_out : list label :=
  [opens file_a 1 broken []; LWorker 0; LTasks [0]%nat; changes file_a 2 [full_change fixed] []; LWorker 0; LTasks [0]%nat;
   LMsg (MNotification (NDidClose (Some (UFile file_a)))) []; LWorker 0; LTasks [0]%nat].
Example in_and_out_runs : buildable all_local /\ valid_labels in_and_out /\ Forall in_order in_and_out /\
  exists out s d, serve plain_order all_local false in_and_out = (out, Alive s) /\ settled s /\ not_open s file_a /\
    publications file_a out = [(Some 1%Z, [d]); (Some 2%Z, [])].
Proof.
  split; [exists []; split; reflexivity|]. split; [repeat constructor|]. split; [repeat constructor|].
  do 3 eexists. split; [vm_compute; reflexivity|]. split; [split; reflexivity|]. split; reflexivity.
Qed.
(** by a client that waits *)
Example in_and_out_is_patient : patient plain_order all_local false in_and_out.
Proof.
  intros before m cuts after comps out s E A H. unfold in_and_out in E.
  repeat (destruct before as [|? before]; cbn [app] in E;
    [first [discriminate E | injection E as <- <- <-; vm_compute in H; injection H as <- <-; split; reflexivity]|
     injection E as <- E]). destruct before; discriminate E.
Qed.
(** and then another file is opened *)
Example others_are_served : exists out s d, valid_labels (in_and_out ++ [opens file_b 1 broken []; LWorker 0; LTasks [0]%nat]) /\
  Forall (fun m => ~ opens_doc file_a m) (messages [opens file_b 1 broken []; LWorker 0; LTasks [0]%nat]) /\
  serve plain_order all_local false (in_and_out ++ [opens file_b 1 broken []; LWorker 0; LTasks [0]%nat]) = (out, Alive s) /\
  publications file_b out = [(Some 1%Z, [d])].
Proof.
  do 3 eexists. split; [repeat constructor|]. split; [constructor; [intros (v & t & X); discriminate|constructor]|].
  split; [vm_compute; reflexivity|reflexivity].
Qed.
(** one job with a hopeless file, one without *)
Example both_outcomes : exists out s j out' s' j' l,
  serve plain_order all_local false [opens file_a 1 broken []; opens file_b 1 (`"$") []] = (out, Alive s) /\ In j (s_jobs s) /\
  job_run (s_endings s) j (length (jb_files j)) = [] /\
  serve plain_order all_local false [opens file_a 1 broken []; opens file_b 1 fixed []] = (out', Alive s') /\ In j' (s_jobs s') /\
  job_run (s_endings s') j' (length (jb_files j')) = [TDiagnostics l] /\ length l = 2%nat.
Proof.
  do 7 eexists. split; [vm_compute; reflexivity|]. split; [left; reflexivity|]. split; [vm_compute; reflexivity|].
  split; [vm_compute; reflexivity|]. split; [left; reflexivity|]. split; [vm_compute; reflexivity|reflexivity].
Qed.

Print Assumptions C57_diagnostics_are_of_a_text_it_had.
Print Assumptions C57_in_order_never_back.
Print Assumptions C57_unopened_documents_get_none.
Print Assumptions C47_silence_after_closing_partial.
Print Assumptions C46_patient_clients_partial.
Print Assumptions C43_own_text_only_partial.
Print Assumptions C43_all_or_nothing_partial.
