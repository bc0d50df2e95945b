(** Properties C28-C32, C35, C36 and C43: the main loop, its documents and the
    diagnostics of one file.  Specifications: ServerSpec.v and DiagSpec.v. *)
From Coq Require Import String Permutation.
From Verif Require Import Base BaseProofs Utf8 Utf8Proofs TextSpec LineIndex LineEndings Vfs VfsSpec VfsProofs FileSet
  DocChanges DocChangesSpec DocChangesProofs GreenSpec Sink Database DatabaseProofs Diagnostics Server ServerSpec ServerInv ServerRun
  ServerTheorems DiagSpec DiagProofs PropText PropParser.
Local Open Scope N_scope.

(** Any session: [ho] is the order in which hash maps are walked, [c] the
    source roots, [ls] the schedule.  [handled] are the labels the server dealt
    with before the run ended. *)
Section Sessions.
  Context (ho : hash_order) (c : root_config) (did_save : bool).

  Lemma session ls out e : buildable c -> valid_labels ls -> serve ho c did_save ls = (out, e) ->
    exists out', out = snd (start c did_save) ++ out' /\ run_ok ho (fst (start c did_save)) ls out' e.
  Proof.
    intros Hc V H. destruct (serve_run ho c did_save ls out e H) as (out' & Hr & ->). exists out'. split; [reflexivity|].
    destruct (inv_start c did_save Hc) as [I Q]. apply run_spec; auto.
  Qed.
  Lemma session_alive ls out s : buildable c -> valid_labels ls -> serve ho c did_save ls = (out, Alive s) -> inv s /\ quiet s.
  Proof.
    intros Hc V H. destruct (session ls out _ Hc V H) as (out' & _ & K).
    destruct K as (handled & rest & s' & _ & _ & I & Q & _ & _ & _ & _ & _ & _ & ->). auto.
  Qed.

  (** ** C28 *)
  Theorem C28_every_request_answered_once : forall ls out e,
    buildable c -> valid_labels ls -> serve ho c did_save ls = (out, e) ->
    exists handled rest, ls = handled ++ rest /\
      map fst (responses out) = request_ids (messages handled) /\
      match e with Alive _ => rest = [] | _ => rest <> [] end.
  Proof.
    intros ls out e Hc V H. destruct (session ls out e Hc V H) as (out' & -> & handled & rest & s' & -> & Hr & _ & _ & Hresp & _ & _ & _ & _ & He).
    exists handled, rest. split; [reflexivity|]. split.
    - rewrite responses_app, start_responses, Hresp. cbn [app]. rewrite start_shutdown. clear. generalize false.
      induction (messages handled) as [|m ms IH]; intros down; [reflexivity|]. destruct m as [r|n|id]; cbn [answers request_ids map fst]; rewrite IH; reflexivity.
    - destruct e as [s2| | | |].
      + apply He.
      + destruct He as (? & ? & ->). discriminate.
      + destruct He as (? & ->). discriminate.
      + destruct He as (? & ? & ? & -> & _). discriminate.
      + contradiction.
  Qed.

  (** ** C29 *)
  Theorem C29_shutdown_protocol : forall ls out e,
    buildable c -> valid_labels ls -> serve ho c did_save ls = (out, e) ->
    exists handled rest, ls = handled ++ rest /\
      responses out = answers false (messages handled) /\
      Forall (fun m => is_exit m = false) (messages handled) /\ ~ In LHangup handled /\
      match e with
      | Alive _ => rest = []
      | Exited => exists cuts rest', rest = LMsg (MNotification NExit) cuts :: rest'
      | Failed => exists rest', rest = LHangup :: rest'
      | Died _ => exists m cuts rest', rest = LMsg m cuts :: rest' /\ is_exit m = false
      | NoFuel => False
      end.
  Proof.
    intros ls out e Hc V H. destruct (session ls out e Hc V H) as (out' & -> & K).
    pose proof K as (handled & rest & s' & -> & Hr & _ & _ & Hresp & _ & _ & _ & _ & He).
    exists handled, rest. split; [reflexivity|]. rewrite responses_app, start_responses, Hresp, start_shutdown.
    split; [reflexivity|]. pose proof (alive_labels ho _ _ _ _ Hr) as Ha. split; [|split].
    - clear -Ha. induction Ha as [|l ls [_ Hl] _ IH]; [constructor|]. unfold messages. cbn [flat_map].
      apply Forall_app. split; [|exact IH]. destruct l; constructor; eauto.
    - intros Hin. rewrite Forall_forall in Ha. destruct (Ha _ Hin) as [X _]. auto.
    - destruct e as [s2| | | |]; auto; [apply He|].
      destruct He as (m & cuts & rest' & -> & Hf). exists m, cuts, rest'. split; [reflexivity|].
      destruct m as [|n|]; [reflexivity| |reflexivity]. destruct n; try reflexivity. exfalso.
      assert (Hd : exists w0, snd (run ho s' (LMsg (MNotification NExit) cuts :: rest')) = Died w0).
      { destruct (serve_run ho c did_save _ _ _ H) as (o & Ho & _). rewrite (run_app ho handled _ _ _ _ Hr) in Ho.
        injection Ho as _ Ho. eauto. }
      destruct Hd as [w0 Hd]. cbn in Hd. discriminate.
  Qed.

  (** ** C30.  [follows] says what the document is after the messages. *)
  Theorem C30_documents_follow_the_client : forall ls out s comps d,
    buildable c -> valid_labels ls -> serve ho c did_save ls = (out, Alive s) ->
    follows comps None (messages ls) d ->
    match d with Some (v, t) => holds s comps v t | None => not_open s comps end.
  Proof.
    intros ls out s comps d Hc V H F. destruct (session_alive _ _ _ Hc V H) as [Is _].
    destruct (serve_run ho c did_save ls out _ H) as (out' & Hr & _). destruct (inv_start c did_save Hc) as [I Q].
    assert (D : doc s comps = shown d).
    { eapply (run_follows ho ls (fst (start c did_save)) out' s comps None d); eauto; [apply start_doc|discriminate]. }
    destruct d as [[v t]|]; cbn [shown option_map fst snd] in D.
    - apply contents_holds; auto.
    - unfold not_open. unfold doc in D. destruct (alookup _ _ _); [discriminate|reflexivity].
  Qed.
  (** For a well-behaved client there always is such a document. *)
  Theorem C30_well_behaved_clients : forall docs pending ls comps,
    polite docs pending ls -> docs comps = None -> exists d, follows comps None (messages ls) d.
  Proof. intros docs pending ls comps H Hd. eapply polite_follows; eauto. Qed.

  (** ** C31 *)
  Theorem C31_analysis_sees_current_text : forall ls out s,
    buildable c -> valid_labels ls -> serve ho c did_save ls = (out, Alive s) ->
    vfs_has_changes (s_vfs s) = false /\
    forall id p, vfs_file_path (s_vfs s) id = Ok p ->
      exists t root, vfs_file_contents (s_vfs s) id = Ok (encode t) /\
        file_text (s_db s) id = Ok (crlf_to_lf t) /\
        file_source_root (s_db s) id = Ok (N.of_nat (fsc_classify (rc_fsc c) p)) /\
        get_source_root (s_db s) (N.of_nat (fsc_classify (rc_fsc c) p)) = Ok root /\
        fs_path_for_file (sr_files root) id = Some p.
  Proof.
    intros ls out s Hc V H. destruct (session ls out _ Hc V H) as (out' & _ & handled & rest & s' & _ & _ & [M Hn] & _ & _ & _ & Hroots & _ & _ & _ & ->).
    rewrite start_roots in Hroots. unfold vfs_has_changes. rewrite Hn. split; [reflexivity|]. intros id p Hp.
    pose proof (m_vfs _ _ _ _ _ _ _ _ _ M) as Hv. pose proof (path_known _ _ _ (proj1 Hv) Hp) as Hk.
    destruct (proj2 Hv p (known_In _ _ _ Hk)) as (comps & t & _ & Hs & Hc').
    destruct (m_root _ _ _ _ _ _ _ _ _ M p id Hk) as [(root & R1 & R2 & R3 & R4)|(f & Hf & _)]; [|rewrite Hn in Hf; destruct Hf].
    destruct (m_text _ _ _ _ _ _ _ _ _ M p id Hk) as [[T1 _]|(f & Hf & _)]; [|rewrite Hn in Hf; destruct Hf].
    exists t, root. rewrite Hroots in *. unfold file_text, file_source_root, get_source_root. rewrite T1, R1, R2.
    split; [eapply known_contents; eauto|]. cbn [unwrap]. rewrite (known_text _ _ _ t Hk Hc' Hs). auto.
  Qed.

  (** ** C32 *)
  (** A well-behaved client cannot kill the server. *)
  Theorem C32_well_behaved_clients_are_served : forall ls out e,
    buildable c -> polite (fun _ => None) did_save ls -> N.of_nat (length ls) < u32_max ->
    serve ho c did_save ls = (out, e) ->
    match e with Alive _ | Exited | Failed => True | Died _ | NoFuel => False end.
  Proof.
    intros ls out e Hc P L H. destruct (serve_run ho c did_save ls out e H) as (out' & Hr & _).
    destruct (inv_start c did_save Hc) as [I Q].
    pose proof (polite_runs ho ls (fun _ => None) did_save (fst (start c did_save)) I Q) as G. rewrite Hr in G. apply G; auto.
    - intros comps. apply start_doc.
    - destruct did_save; [discriminate|discriminate].
    - destruct did_save; cbn; exact L.
  Qed.
  (** The messages that kill the server are: parameters that do not
      deserialise, a response to a request that was not made, and an edit of an
      open document that cannot be applied to its text ([fatal]). *)
  Theorem C32_only_these_messages_kill : forall ls out s m cuts,
    buildable c -> valid_labels ls -> serve ho c did_save ls = (out, Alive s) ->
    valid_message m -> is_exit m = false -> ~ too_many_files s ->
    ((exists w, step ho s (LMsg m cuts) = Dies w) <-> fatal s m).
  Proof.
    intros ls out s m cuts Hc V H Vm Hx Hf. destruct (session_alive _ _ _ Hc V H) as [I Q].
    assert (Es : step ho s (LMsg m cuts) = of_res (handle_message ho s m cuts)).
    { destruct m as [|n|]; try reflexivity. destruct n; try reflexivity. discriminate. }
    rewrite Es. destruct (handle_message_spec ho s m cuts I Q Vm) as [(s1 & s' & o1 & o2 & He & _ & _ & Hm & K)|[F [w Hm]]].
    - rewrite Hm. split; [intros [w X]; discriminate|]. intros F. exfalso. unfold on_event in He.
      destruct F as [| | | | |id Hid|p path ver t Hp Hd Hcon Hs Ha|m Hm']; try discriminate.
      + unfold complete_request in He. rewrite Hid in He. discriminate.
      + cbn [on_notification extract bind] in He. pose proof (did_change_spec s p I Vm) as D. rewrite Hp, Hd in D.
        destruct D as (t2 & Hs2 & Hc2 & D). cbn zeta in D.
        assert (t2 = t) by (apply encode_inj; [exact Hs2|congruence|exact Hs]). subst t2.
        destruct (apply_document_changes t (cp_changes p)) as [t'|w|] eqn:E; [exact (Ha t' eq_refl)| |]; rewrite D in He; discriminate.
      + contradiction.
    - rewrite Hm. cbn [of_res]. split; intros _; [exact F|exists w; reflexivity].
  Qed.
  (** A background job can only be stopped by a panic of the parser (or a file
      of 4 GiB): none of its lookups fails. *)
  Theorem C32_jobs_find_their_files : forall ls out s j id,
    buildable c -> valid_labels ls -> serve ho c did_save ls = (out, Alive s) ->
    In j (s_jobs s) -> In id (jb_files j) ->
    exists t, file_text (jb_db j) id = Ok t /\
      (tlen t < u32_bound ->
       match source_file_parse t with
       | Ok _ => exists ds, publish_diagnostics (s_endings s) (jb_db j) id = Ok ds
       | Panic w => publish_diagnostics (s_endings s) (jb_db j) id = Panic w
       | Fuel => False
       end).
  Proof.
    intros ls out s j id Hc V H Hj Hid. destruct (session_alive _ _ _ Hc V H) as [[M _] _].
    destruct (m_jobs _ _ _ _ _ _ _ _ _ M j id Hj Hid) as [H1 H2].
    unfold file_text. destruct (alookup N.eqb id (db_text (jb_db j))) as [t|] eqn:E; [|contradiction].
    exists t. split; [reflexivity|]. intros Ht.
    pose proof (publish_diagnostics_spec (s_endings s) (jb_db j) id t H2) as P. unfold file_text in P. rewrite E in P.
    specialize (P eq_refl Ht). destruct (source_file_parse t) as [[g errs]|w|]; auto. destruct P as (ds & P & _). eauto.
  Qed.
End Sessions.

(** ** C35.  At most 128 diagnostics, one per leading syntax error in order,
    each at a position of the text. *)
Theorem C35_diagnostics_of_a_file : forall endings db id t g errs,
  alookup N.eqb id endings <> None -> file_text db id = Ok t -> tlen t < u32_bound ->
  source_file_parse t = Ok (g, errs) ->
  exists ds, publish_diagnostics endings db id = Ok ds /\
    (length ds <= 128)%nat /\ length ds = Nat.min 128 (length errs) /\
    forall i e, (i < 128)%nat -> nth_error errs i = Some e ->
      exists d, nth_error ds i = Some d /\ diagnostic_of Utf8 t e d.
Proof.
  intros endings db id t g errs He Ht Hs Hp. pose proof (publish_diagnostics_spec endings db id t He Ht Hs) as P. rewrite Hp in P.
  destruct P as (ds & P & F). exists ds. split; [exact P|].
  assert (L : length (firstn 128 errs) = length ds) by (clear -F; induction F; cbn [length]; auto). rewrite firstn_length in L. split; [lia|]. split; [lia|].
  intros i e Hi Hn.
  assert (Hn' : nth_error (firstn 128 errs) i = Some e).
  { rewrite <- Hn. clear -Hi. revert errs Hi. generalize 128%nat as n. intros n errs; revert n i.
    induction errs as [|x errs IH]; intros n i Hi; [destruct n; reflexivity|].
    destruct n as [|n]; [lia|]. destruct i as [|i]; [reflexivity|]. cbn [firstn nth_error]. apply IH. lia. }
  clear -F Hn'. revert i Hn'. induction F as [|x y l m R F IH]; intros i Hn'; [destruct i; discriminate|].
  destruct i as [|i]; cbn [nth_error] in *; [injection Hn' as ->; eauto|eauto].
Qed.
(** ... and they come in the order of the text. *)
Theorem C35_diagnostics_in_order : forall t g errs,
  tlen t < u32_bound -> source_file_parse t = Ok (g, errs) ->
  ascending 0 (map se_pos (firstn 128 errs)) (tlen t).
Proof.
  intros t g errs Hs Hp. apply parse_source in Hp. destruct (C22_error_positions t g errs Hs Hp) as [A _].
  rewrite <- (firstn_skipn 128 errs) in A. rewrite map_app in A. clear -A. revert A. generalize 0.
  generalize (map se_pos (skipn 128 errs)) as post. induction (map se_pos (firstn 128 errs)) as [|x l IH]; intros post lo; cbn [app].
  - revert lo. induction post as [|x post IH]; intros lo; [auto|]. cbn. intros [H1 H2]. apply IH in H2. cbn in H2. lia.
  - cbn. intros [H1 H2]. split; [exact H1|eauto].
Qed.

(** ** C36.  Positions are exchanged in the negotiated encoding: false. *)
(** A client that negotiated utf-8 and replaces the "x" of "éx". *)
Theorem C36_received_positions_refuted : exists caps before old after new t',
  negotiated caps = Utf8 /\
  apply_document_changes (before ++ old ++ after)
    [{| ch_range := Some {| r_start := pos_in (negotiated caps) before; r_end := pos_in (negotiated caps) (before ++ old) |};
        ch_text := new |}] = Ok t' /\
  t' <> before ++ new ++ after.
Proof.
  exists (Some [`"utf-8"]), [233], [97], (`"bc"), (`"x"). eexists. split; [reflexivity|].
  split; [vm_compute; reflexivity|discriminate].
Qed.
(** A client without the capability expects UTF-16 and is sent byte columns. *)
Theorem C36_sent_positions_refuted : exists caps endings db id t ds,
  negotiated caps = Utf16 /\ file_text db id = Ok t /\ publish_diagnostics endings db id = Ok ds /\
  ~ diagnoses (negotiated caps) t ds.
Proof.
  set (t := `"script { fun main() { 1 + //" ++ [233]).
  exists None, [(0, Unix)], (set_file_text db_new 0 t), 0, t. eexists. split; [reflexivity|]. split; [reflexivity|].
  split; [vm_compute; reflexivity|]. intros (g & errs & Hp & F).
  assert (E : exists e rest, errs = e :: rest /\ se_pos e = tlen t).
  { vm_compute in Hp. injection Hp as _ <-. eexists _, _. split; reflexivity. }
  destruct E as (e & rest & -> & Hpos). cbn [firstn] in F. inversion F as [|? ? ? ? D _]; subst.
  destruct D as (before & after & Ht & Hlen & Hd).
  assert (after = []) as ->.
  { destruct after as [|x after]; [reflexivity|]. exfalso. rewrite Hpos, Ht, tlen_app in Hlen. cbn [tlen] in Hlen. pose proof (utf8_len_pos x). lia. }
  rewrite app_nil_r in Ht. subst before. injection Hd as Hd _. vm_compute in Hd. discriminate.
Qed.

(** What does hold.  Clients that did not negotiate utf-8: their positions are
    understood. *)
Theorem C36_received_utf16_partial : forall caps before old after new,
  negotiated caps = Utf16 -> tlen (before ++ old ++ after) + tlen new < u32_bound ->
  apply_document_changes (before ++ old ++ after)
    [{| ch_range := Some {| r_start := pos_in (negotiated caps) before; r_end := pos_in (negotiated caps) (before ++ old) |};
        ch_text := new |}] = Ok (before ++ new ++ after).
Proof.
  intros caps before old after new -> Hs. apply C07_client_edits_are_applied.
  - cbn [batch_size ch_text]. lia.
  - econstructor; [|constructor]. apply (edit_range before old after new).
Qed.
(** Clients that did: they are sent what they expect. *)
Theorem C36_sent_utf8_partial : forall caps endings db id t ds,
  negotiated caps = Utf8 -> alookup N.eqb id endings <> None -> file_text db id = Ok t -> tlen t < u32_bound ->
  publish_diagnostics endings db id = Ok ds -> diagnoses (negotiated caps) t ds.
Proof.
  intros caps endings db id t ds -> He Ht Hs Hp. pose proof (publish_diagnostics_spec endings db id t He Ht Hs) as P.
  destruct (source_file_parse t) as [[g errs]|w|] eqn:E; [|congruence|contradiction].
  destruct P as (ds' & P & F). exists g, errs. split; [exact E|]. congruence.
Qed.
(** Everybody, as long as documents are ASCII. *)
Lemma Forall2_imp {A B} (R S : A -> B -> Prop) l m : (forall x y, R x y -> S x y) -> Forall2 R l m -> Forall2 S l m.
Proof. intros H. induction 1; constructor; auto. Qed.
Lemma ascii_len16 t : Forall (fun ch => ch < 128) t -> tlen16 t = tlen t.
Proof.
  induction 1 as [|x l Hx _ IH]; [reflexivity|]. cbn [tlen16 tlen]. rewrite IH. unfold utf16_len, utf8_len.
  repeat match goal with |- context [if ?b then _ else _] => destruct b eqn:? end; lia.
Qed.
Lemma last_line_suffix t : exists pre, t = pre ++ last_line t.
Proof.
  induction t as [|x t [pre IH]]; [exists []; reflexivity|]. cbn [last_line]. destruct (count_lf (x :: t) =? 0).
  - exists []. reflexivity.
  - exists (x :: pre). cbn [app]. f_equal. exact IH.
Qed.
Lemma ascii_pos_in e e' t : Forall (fun ch => ch < 128) t -> pos_in e t = pos_in e' t.
Proof.
  intros H. unfold pos_in. f_equal. destruct (last_line_suffix t) as [pre E]. rewrite E in H. apply Forall_app in H as [_ H].
  pose proof (ascii_len16 _ H). destruct e, e'; congruence.
Qed.
Theorem C36_ascii_documents_partial : forall caps endings db id t,
  alookup N.eqb id endings <> None -> file_text db id = Ok t -> tlen t < u32_bound -> Forall (fun ch => ch < 128) t ->
  (forall ds, publish_diagnostics endings db id = Ok ds -> diagnoses (negotiated caps) t ds) /\
  (forall before old after new, t = before ++ old ++ after -> tlen t + tlen new < u32_bound ->
    apply_document_changes t
      [{| ch_range := Some {| r_start := pos_in (negotiated caps) before; r_end := pos_in (negotiated caps) (before ++ old) |};
          ch_text := new |}] = Ok (before ++ new ++ after)).
Proof.
  intros caps endings db id t He Ht Hs Ha. split.
  - intros ds Hp. destruct (C36_sent_utf8_partial (Some [`"utf-8"]) endings db id t ds eq_refl He Ht Hs Hp) as (g & errs & Hg & F).
    exists g, errs. split; [exact Hg|]. eapply Forall2_imp; [|exact F].
    intros e d (b & a & Eb & Hl & ->). exists b, a. split; [exact Eb|]. split; [exact Hl|].
    rewrite (ascii_pos_in (negotiated caps) (negotiated (Some [`"utf-8"])) b); [reflexivity|]. rewrite Eb in Ha. apply Forall_app in Ha. tauto.
  - intros before old after new -> Hn. rewrite !(ascii_pos_in (negotiated caps) (negotiated None)).
    + apply C36_received_utf16_partial; [reflexivity|exact Hn].
    + apply Forall_app in Ha as [H1 Ha]. apply Forall_app in Ha as [H2 _]. apply Forall_app. auto.
    + apply Forall_app in Ha. tauto.
Qed.

(** ** C43.  Whether a file gets diagnostics does not depend on the other
    files: false. *)
Definition plain_order : hash_order := {| ord := fun A l => l; ord_perm := fun A l => Permutation_refl l |}.
(** every file belongs to a local root *)
Definition all_local : root_config := {| rc_fsc := {| fsc_n := 1; fsc_map := [] |}; rc_local := [0%nat] |}.
Definition file_a : list text := [`"a.move"].
Definition file_b : list text := [`"b.move"].
Definition opens (comps : list text) (v : Z) (t : text) (cuts : list nat) : label :=
  LMsg (MNotification (NDidOpen (Some {| op_url := UFile comps; op_version := v; op_text := t |}))) cuts.
(** both files are opened, the job for both runs to its end, its results are received *)
Definition two_files (b : text) : list label :=
  [opens file_a 1 (`"script { fun f() { 1 + ; } }") []; opens file_b 1 b [0%nat]; LWorker 0; LTasks [0; 0; 0]%nat].
Theorem C43_other_files_matter_refuted : exists ho c b b' out out' s s',
  serve ho c false (two_files b) = (out, Alive s) /\ serve ho c false (two_files b') = (out', Alive s') /\
  (exists v ds, In (OPublish (UFile file_a) v ds) out) /\
  (forall v ds, ~ In (OPublish (UFile file_a) v ds) out') /\ s_jobs s' = [] /\ s_done s' = [].
Proof.
  exists plain_order, all_local, (`"script { }"), (`"$"). do 4 eexists.
  split; [vm_compute; reflexivity|]. split; [vm_compute; reflexivity|]. split; [|split; [|split; reflexivity]].
  - do 2 eexists. left. reflexivity.
  - intros v ds [].
Qed.
(** A file whose own text is fine for the parser is not safe, but one among
    files that are all fine is. *)
Theorem C43_all_fine_partial : forall endings db files t,
  (forall id, In id files -> alookup N.eqb id endings <> None /\ file_text db id = Ok (t id) /\
     tlen (t id) < u32_bound /\ exists g errs, source_file_parse (t id) = Ok (g, errs)) ->
  exists l, job_run endings {| jb_db := db; jb_files := files |} (length files) = [TDiagnostics l] /\
    Forall2 (fun id r => fst r = id /\ diagnoses Utf8 (t id) (snd r)) files l.
Proof.
  intros endings db files t H. unfold job_run. cbn [jb_db jb_files].
  assert (G : exists l, job_files endings db files (length files) = Ok l /\
              Forall2 (fun id r => fst r = id /\ diagnoses Utf8 (t id) (snd r)) files l).
  { induction files as [|id files IH]; cbn [job_files length]; [exists []; auto|].
    destruct (H id (or_introl eq_refl)) as (H1 & H2 & H3 & g & errs & H4).
    pose proof (publish_diagnostics_spec endings db id (t id) H1 H2 H3) as P. rewrite H4 in P. destruct P as (ds & P & F).
    destruct IH as (l & Hl & Fl); [intros i Hi; apply H; right; exact Hi|]. rewrite P. cbn [bind]. rewrite Hl. cbn [bind].
    eexists. split; [reflexivity|]. constructor; [|exact Fl]. cbn [fst snd]. split; [reflexivity|]. exists g, errs. auto. }
  destruct G as (l & Hl & F). rewrite Hl. eauto.
Qed.

(** ** A session that meets the hypotheses *)
Definition changes (comps : list text) (v : Z) (chs : list change) (cuts : list nat) : label :=
  LMsg (MNotification (NDidChange (Some {| cp_url := UFile comps; cp_version := v; cp_changes := chs |}))) cuts.
Definition asks (id : Z) (method : string) : label :=
  LMsg (MRequest {| rq_id := IdNum id; rq_method := `method; rq_params := JNull |}) [].
Definition sample_session : list label :=
  [ LMsg (MResponse (IdNum 0)) [];
    opens file_a 1 (`"script {" ++ [cCR; cLF] ++ `"}") [];
    LWorker 0;
    opens file_b 1 (`"module M { }") [];
    changes file_a 2 [{| ch_range := Some {| r_start := {| p_line := 0; p_char := 8 |}; r_end := {| p_line := 1; p_char := 0 |} |};
                         ch_text := `" fun f() { } " |}] [1%nat];
    LTasks [1; 0]%nat;
    asks 7 "textDocument/hover";
    asks 8 "shutdown";
    LMsg (MNotification (NDidClose (Some (UFile file_b)))) [];
    asks 9 "shutdown" ].
Example sample_polite : polite (fun _ => None) true sample_session.
Proof.
  unfold sample_session, opens, changes, asks.
  apply polite_answer. apply polite_open; [reflexivity|].
  apply polite_schedule; [reflexivity|]. apply polite_open; [reflexivity|].
  eapply polite_change; [reflexivity|repeat constructor| |].
  { split; [vm_compute; reflexivity|]. left. econstructor; [|constructor].
    apply (edit_range (`"script {") [cCR; cLF] (`"}") (`" fun f() { } ")). }
  apply polite_schedule; [reflexivity|]. do 2 apply polite_request. apply polite_close. apply polite_request. apply polite_nil.
Qed.
Example sample_run : exists out s, serve plain_order all_local true sample_session = (out, Alive s) /\
  responses out = [(IdNum 7, BErr MethodNotFound); (IdNum 8, BOk); (IdNum 9, BErr InvalidRequest)] /\
  holds s file_a 2 (`"script { fun f() { } }") /\ not_open s file_b /\ length (s_jobs s) = 2%nat.
Proof.
  do 2 eexists. split; [vm_compute; reflexivity|]. split; [reflexivity|]. split; [|split; reflexivity].
  split; [reflexivity|]. exists 0. split; reflexivity.
Qed.
Example sample_buildable : buildable all_local /\ buildable root_config_default.
Proof. split; exists []; split; reflexivity. Qed.
Example sample_fatal : exists out s, serve plain_order all_local true (firstn 2 sample_session) = (out, Alive s) /\
  fatal s (MResponse (IdNum 0)) /\ ~ too_many_files s /\
  snd (serve plain_order all_local true (firstn 2 sample_session ++ [LMsg (MResponse (IdNum 0)) []])) = Died PUnwrap.
Proof.
  do 2 eexists. split; [vm_compute; reflexivity|]. split; [apply fatal_response; reflexivity|].
  split; [vm_compute; intros H; apply H; reflexivity|vm_compute; reflexivity].
Qed.
Example sample_endings :
  snd (serve plain_order all_local false [asks 1 "shutdown"; LMsg (MNotification NExit) []; asks 2 "x"]) = Exited /\
  snd (serve plain_order all_local false [LHangup; asks 2 "x"]) = Failed.
Proof. split; vm_compute; reflexivity. Qed.
(** 130 errors, 128 diagnostics *)
Definition many_errors : text := `"script { fun f() { " ++ concat (repeat (`"1 + ; ") 130) ++ `"} }".
Example sample_diagnostics : exists g errs ds, source_file_parse many_errors = Ok (g, errs) /\ length errs = 130%nat /\
  publish_diagnostics [(0, Unix)] (set_file_text db_new 0 many_errors) 0 = Ok ds /\ length ds = 128%nat.
Proof. do 3 eexists. split; [vm_compute; reflexivity|]. split; [reflexivity|]. split; [vm_compute; reflexivity|reflexivity]. Qed.

Print Assumptions C28_every_request_answered_once.
Print Assumptions C29_shutdown_protocol.
Print Assumptions C30_documents_follow_the_client.
Print Assumptions C30_well_behaved_clients.
Print Assumptions C31_analysis_sees_current_text.
Print Assumptions C32_well_behaved_clients_are_served.
Print Assumptions C32_only_these_messages_kill.
Print Assumptions C32_jobs_find_their_files.
Print Assumptions C35_diagnostics_of_a_file.
Print Assumptions C35_diagnostics_in_order.
Print Assumptions C36_received_positions_refuted.
Print Assumptions C36_sent_positions_refuted.
Print Assumptions C36_received_utf16_partial.
Print Assumptions C36_sent_utf8_partial.
Print Assumptions C36_ascii_documents_partial.
Print Assumptions C43_other_files_matter_refuted.
Print Assumptions C43_all_fine_partial.
