(** Invariants of the main loop (Server.v). *)
From Coq Require Import String Permutation.
From Verif Require Import Base BaseProofs Utf8 Utf8Proofs LineIndex LineEndings LineEndingsProofs Vfs VfsSpec VfsProofs
  FileSet FileSetSpec FileSetProofs DocChanges DocChangesSpec Sink Database DatabaseProofs Diagnostics Server.
Local Open Scope N_scope.

Lemma id_eqb_spec a b : id_eqb a b = true <-> a = b.
Proof.
  destruct a, b; cbn; split; intros H; try discriminate.
  - apply Z.eqb_eq in H; congruence.
  - injection H as ->. apply Z.eqb_refl.
  - apply text_eqb_eq in H; congruence.
  - injection H as ->. apply text_eqb_refl.
Qed.

(** ** Files *)
Definition known (v : vfs) (id : N) (p : vpath) : Prop := index_of p (v_interner v) = Some (N.to_nat id).
Definition vfs_ok (v : vfs) : Prop :=
  vfs_inv v /\ forall p, In p (v_interner v) -> exists comps t, p = Real comps /\ scalars t /\ contents v p = Some (encode t).

Lemma known_In v id p : known v id p -> In p (v_interner v).
Proof. intros H. apply index_of_Some in H. eapply nth_error_In; eauto. Qed.
Lemma In_known v p : In p (v_interner v) -> exists id, known v id p.
Proof.
  intros H. destruct (index_of p (v_interner v)) as [i|] eqn:E.
  - exists (N.of_nat i). unfold known. rewrite Nat2N.id. auto.
  - apply index_of_None in E. contradiction.
Qed.
Lemma known_path v id p : known v id p -> vfs_file_path v id = Ok p.
Proof. intros H. apply index_of_Some in H. unfold vfs_file_path, interner_lookup. rewrite H. reflexivity. Qed.
Lemma path_known v id p : vfs_inv v -> vfs_file_path v id = Ok p -> known v id p.
Proof.
  intros [Hn _]. unfold vfs_file_path, interner_lookup. destruct (nth_error _ _) eqn:E; cbn; [|discriminate].
  intros H; injection H as ->. apply index_of_nth; auto.
Qed.
Lemma known_inj v id p q : known v id p -> known v id q -> p = q.
Proof. intros H1 H2. apply index_of_Some in H1, H2. congruence. Qed.
Lemma known_fun v i j p : known v i p -> known v j p -> i = j.
Proof. unfold known. intros H1 H2. rewrite H1 in H2. injection H2. lia. Qed.
Lemma known_data v id p c : known v id p -> contents v p = Some c -> nth_error (v_data v) (N.to_nat id) = Some (Some c).
Proof. intros H. unfold contents. rewrite H. destruct (nth_error _ _); [|discriminate]. intros ->; auto. Qed.
Lemma known_live v id p c : known v id p -> contents v p = Some c -> live v id = true.
Proof. intros H Hc. unfold live. rewrite (known_data v id p c); auto. Qed.
Lemma known_contents v id p c : known v id p -> contents v p = Some c -> vfs_file_contents v id = Ok c.
Proof. intros H Hc. unfold vfs_file_contents, vfs_get. rewrite (known_data v id p c); auto. Qed.
Lemma known_file_id v id p c : known v id p -> contents v p = Some c -> vfs_file_id v p = Ok (Some id).
Proof.
  intros H Hc. unfold vfs_file_id, interner_get, vfs_get. rewrite H. cbn [option_map].
  rewrite N2Nat.id, (known_data v id p c); auto.
Qed.

(** the text the database should have for a file *)
Definition text_at (v : vfs) (id : N) : text :=
  match nth_error (v_data v) (N.to_nat id) with
  | Some (Some b) => match decode b with Some t => crlf_to_lf t | None => [] end
  | _ => []
  end.
Lemma known_text v id p t : known v id p -> contents v p = Some (encode t) -> scalars t -> text_at v id = crlf_to_lf t.
Proof. intros H Hc Hs. unfold text_at. rewrite (known_data v id p _ H Hc), decode_encode; auto. Qed.

(** ** The invariant, on the parts of the state it reads *)
Definition done_ids (ts : list task) : list N :=
  flat_map (fun t => match t with TDiagnostics l => map fst l | TResponse _ _ => [] end) ts.
Definition mentioned (diags : collection) (jobs : list job) (done : list task) : list N :=
  dc_changes diags ++ map fst (dc_native diags) ++ flat_map jb_files jobs ++ done_ids done.

Record core (c : root_config) (v : vfs) (e : list (N * endings)) (db : database) (docs : list (vpath * Z))
            (diags : collection) (jobs : list job) (done : list task) (progress : N * N * N * N) : Prop := {
  m_config : config_ok c;
  m_vfs : vfs_ok v;
  m_changes : forall f, In f (v_changes v) -> cf_exists f = true /\ exists p, known v (cf_id f) p;
  m_root : forall p id, known v id p ->
    file_rooted c db id p \/ exists f, In f (v_changes v) /\ cf_id f = id /\ cf_kind f = Create;
  m_text : forall p id, known v id p ->
    (alookup N.eqb id (db_text db) = Some (text_at v id) /\ alookup N.eqb id e <> None) \/
    exists f, In f (v_changes v) /\ cf_id f = id;
  m_docs_nodup : NoDup (map fst docs);
  m_docs : forall p, In p (map fst docs) -> In p (v_interner v);
  m_mentioned : forall id, In id (mentioned diags jobs done) -> exists p, known v id p;
  m_jobs : forall j id, In j jobs -> In id (jb_files j) ->
    alookup N.eqb id (db_text (jb_db j)) <> None /\ alookup N.eqb id e <> None;
  m_progress : progress = (0, 0, 0, 0);
  m_check : dc_check diags = [];
  m_no_response : forall id b, ~ In (TResponse id b) done
}.
Definition mid (s : state) : Prop :=
  core (s_roots s) (s_vfs s) (s_endings s) (s_db s) (s_docs s) (s_diags s) (s_jobs s) (s_done s) (s_progress s).
(** between turns *)
Definition inv (s : state) : Prop := mid s /\ v_changes (s_vfs s) = [].

(** ** process_changes *)
Lemma collect_changes_spec v files : vfs_ok v ->
  (forall f, In f files -> cf_exists f = true /\ exists p, known v (cf_id f) p) ->
  forall e st, exists e' texts,
  collect_changes v e st files = Ok (e', st || existsb cf_created_or_deleted files, texts) /\
  (forall id, alookup N.eqb id e <> None -> alookup N.eqb id e' <> None) /\
  (forall f, In f files -> alookup N.eqb (cf_id f) e' <> None) /\
  texts = map (fun f => (cf_id f, Some (text_at v (cf_id f)))) files.
Proof.
  intros Hv. induction files as [|f files IH]; intros Hf e st; cbn [collect_changes existsb map].
  - exists e, []. rewrite orb_false_r. repeat split; auto; intros f [].
  - destruct (Hf f) as [Hex [p Hk]]; [left; auto|].
    destruct (proj2 Hv p (known_In _ _ _ Hk)) as [comps [t [-> [Hs Hc]]]].
    rewrite (known_path _ _ _ Hk). cbn [bind].
    unfold changed_text. rewrite Hex, (known_contents _ _ _ _ Hk Hc). cbn [bind].
    rewrite decode_encode by auto. rewrite normalize_spec by auto. cbn [bind].
    set (e1 := ainsert N.eqb (cf_id f) _ e).
    destruct (IH ltac:(intros g Hg; apply Hf; right; auto) e1 (st || cf_created_or_deleted f)) as [e' [texts [H1 [H2 [H3 ->]]]]].
    rewrite H1. cbn [bind]. rewrite orb_assoc, (known_text v _ _ t Hk Hc Hs).
    assert (He1 : forall id, alookup N.eqb id e <> None \/ id = cf_id f -> alookup N.eqb id e1 <> None).
    { intros id. destruct (N.eq_dec id (cf_id f)) as [->|Hne]; unfold e1.
      - rewrite (alookup_insert _ Neqb_spec). discriminate.
      - rewrite (alookup_insert_ne _ Neqb_spec) by congruence. tauto. }
    exists e', ((cf_id f, Some (crlf_to_lf t)) :: map (fun f => (cf_id f, Some (text_at v (cf_id f)))) files).
    split; [reflexivity|]. split; [intros id Hid; apply H2, He1; auto|]. split; [|reflexivity].
    intros g [<-|Hg]; auto.
Qed.

Lemma job_files_ids e db files cut l : job_files e db files cut = Ok l -> forall id, In id (map fst l) -> In id files.
Proof.
  revert cut l; induction files as [|i files IH]; intros cut l; cbn [job_files].
  - destruct cut; intros H; injection H as <-; intros id [].
  - destruct cut as [|cut]; [intros H; injection H as <-; intros id []|].
    destruct (publish_diagnostics e db i) as [ds| |]; cbn [bind]; try discriminate.
    destruct (job_files e db files cut) as [r| |] eqn:E; cbn [bind]; try discriminate.
    intros H; injection H as <-. cbn [map fst In]. intros id [->|Hid]; [left; auto|right; eapply IH; eauto].
Qed.
Lemma job_run_ids e j cut id : In id (done_ids (job_run e j cut)) -> In id (jb_files j).
Proof.
  unfold job_run. destruct (job_files _ _ _ _) eqn:E; cbn; try tauto. rewrite app_nil_r. eapply job_files_ids; eauto.
Qed.
Lemma done_ids_app a b : done_ids (a ++ b) = done_ids a ++ done_ids b.
Proof. apply flat_map_app. Qed.
Lemma jobs_cut_ids e jobs : forall cuts id, In id (done_ids (jobs_cut e jobs cuts)) -> In id (flat_map jb_files jobs).
Proof.
  induction jobs as [|j jobs IH]; intros cuts id; cbn [jobs_cut flat_map]; [intros []|].
  rewrite done_ids_app, !in_app_iff. intros [H|H]; [left; eapply job_run_ids; eauto|right; eapply IH; eauto].
Qed.
Lemma job_run_no_response e j cut id b : ~ In (TResponse id b) (job_run e j cut).
Proof. unfold job_run. destruct (job_files _ _ _ _); cbn; intros H; try tauto. destruct H as [H|[]]. discriminate. Qed.
Lemma jobs_cut_no_response e jobs id b : forall cuts, ~ In (TResponse id b) (jobs_cut e jobs cuts).
Proof.
  induction jobs as [|j jobs IH]; intros cuts; cbn [jobs_cut]; [intros []|].
  rewrite in_app_iff. intros [H|H]; [eapply job_run_no_response; eauto|eapply IH; eauto].
Qed.

Lemma existsb_changed id v (files : list changed_file) :
  existsb (fun f => N.eqb id (fst f)) (map (fun f => (cf_id f, Some (text_at v (cf_id f)))) files) = true <->
  exists f, In f files /\ cf_id f = id.
Proof.
  rewrite existsb_exists. split.
  - intros [[i t] [Hin E]]. apply in_map_iff in Hin as [f [Hf Hin]]. injection Hf as <- <-. cbn in E.
    apply N.eqb_eq in E as ->. eauto.
  - intros [f [Hin <-]]. exists (cf_id f, Some (text_at v (cf_id f))). split; [apply in_map_iff; eauto|apply N.eqb_refl].
Qed.

(** What a turn leaves alone. *)
Record same_front (s s' : state) : Prop := {
  sf_incoming : s_incoming s' = s_incoming s;
  sf_outgoing : s_outgoing s' = s_outgoing s;
  sf_shutdown : s_shutdown s' = s_shutdown s;
  sf_roots : s_roots s' = s_roots s;
  sf_docs : s_docs s' = s_docs s;
  sf_interner : v_interner (s_vfs s') = v_interner (s_vfs s);
  sf_data : v_data (s_vfs s') = v_data (s_vfs s)
}.
Lemma same_front_refl s : same_front s s. Proof. split; reflexivity. Qed.
Lemma same_front_trans a b c : same_front a b -> same_front b c -> same_front a c.
Proof. intros [] []. split; congruence. Qed.

Lemma process_changes_spec s cuts : mid s ->
  exists s', process_changes s cuts = Ok (s', vfs_has_changes (s_vfs s)) /\ inv s' /\ same_front s s' /\
    s_docs_changed s' = s_docs_changed s /\ s_diags s' = s_diags s /\
    (if vfs_has_changes (s_vfs s)
     then s_jobs s' = [] /\ s_done s' = s_done s ++ jobs_cut (s_endings s') (s_jobs s) cuts
     else s' = s).
Proof.
  intros M. unfold process_changes, vfs_take_changes, vfs_has_changes.
  destruct (v_changes (s_vfs s)) as [|f0 fs] eqn:Ech.
  - exists s. split; [reflexivity|]. split; [split; auto|]. split; [apply same_front_refl|]. auto.
  - set (files := f0 :: fs) in *. set (v := {| v_interner := _; v_data := _; v_changes := [] |}).
    pose proof M as M0. destruct M as [Hcfg [Hvi Hvc] Hch Hroot Htext Hdn Hd Hm Hj Hp Hck Hnr]. rewrite Ech in *.
    assert (Hv : vfs_ok v) by (split; [apply (take_inv _ Hvi)|exact Hvc]).
    destruct (collect_changes_spec v files Hv Hch (s_endings (with_vfs s v)) false) as [e [texts [H1 [H2 [H3 ->]]]]].
    change (collect_changes v (s_endings (with_vfs s v)) false files) with (collect_changes v (s_endings s) false files) in *.
    cbn [with_vfs s_endings] in *. rewrite H1. cbn [bind orb]. cbn [with_endings s_roots with_vfs].
    assert (Hex : exists ro db1,
      (if existsb cf_created_or_deleted files then let! r := root_partition (s_roots s) v in Ok (Some r) else Ok None) = Ok ro /\
      match ro with Some roots => apply_roots 0 roots (set_root_sets (s_db s) (root_ids 0 roots false) (root_ids 0 roots true)) | None => s_db s end = db1 /\
      db_text db1 = db_text (s_db s) /\ forall id p, known v id p -> file_rooted (s_roots s) db1 id p).
    { destruct (existsb cf_created_or_deleted files) eqn:Ee.
      - destruct (partition_applied (s_roots s) v db_new Hcfg (proj1 Hv)) as [roots [Hr _]].
        destruct (partition_applied (s_roots s) v (set_root_sets (s_db s) (root_ids 0 roots false) (root_ids 0 roots true)) Hcfg (proj1 Hv)) as [roots' [Hr' [Ht Hall]]].
        assert (roots' = roots) by congruence. subst roots'.
        exists (Some roots). eexists. rewrite Hr. cbn [bind]. split; [reflexivity|]. split; [reflexivity|].
        split; [exact Ht|]. intros id p Hk. destruct (Hvc p (known_In _ _ _ Hk)) as [comps [t [_ [_ Hc]]]].
        apply Hall; [eapply known_live; eauto|apply known_path; auto].
      - exists None, (s_db s). repeat split; auto. intros id p Hk. destruct (Hroot p id Hk) as [?|[f [Hf [_ Hkind]]]]; auto.
        exfalso. assert (existsb cf_created_or_deleted files = true); [|congruence].
        apply existsb_exists. exists f. split; auto. unfold cf_created_or_deleted. rewrite Hkind. auto. }
    destruct Hex as [ro [db1 [Hro [Hdb1 [Ht1 Hr1]]]]]. rewrite Hro. cbn [bind].
    cbn [with_tasks s_db s_endings s_done s_jobs].
    unfold apply_change, change_apply. cbn [dc_roots dc_files].
    replace (match ro with Some roots => apply_roots 0 roots _ | None => _ end) with db1
      by (destruct ro; symmetry; exact Hdb1).
    destruct (apply_files_spec (map (fun f => (cf_id f, Some (text_at v (cf_id f)))) files) db1 (text_at v)) as [db2 [Ha [Hb [Hc Hlk]]]].
    { intros id t Hin. apply in_map_iff in Hin as [f [Hf Hin]]. injection Hf as <- <-. split; auto.
      destruct (Hch f Hin) as [_ [p Hk]]. eapply file_rooted_rooted; eauto. }
    rewrite Ha. cbn [bind]. eexists. split; [reflexivity|]. cbn [s_endings with_db with_tasks with_endings].
    split; [|split; [split; reflexivity|split; [reflexivity|split; [reflexivity|split; reflexivity]]]].
    split; [|reflexivity]. unfold mid. cbn [s_roots s_vfs s_endings s_db s_docs s_diags s_jobs s_done s_progress with_db with_tasks with_endings with_vfs].
    split; auto.
    + intros f [].
    + intros p id Hk. left. destruct (Hr1 id p Hk) as [root [R1 [R2 R3]]]. exists root. rewrite Hb, Hc. auto.
    + intros p id Hk. left. rewrite Hlk.
      destruct (existsb (fun f => N.eqb id (fst f)) _) eqn:Ee.
      * apply existsb_changed in Ee as [f [Hf Hid]]. split; [reflexivity|]. rewrite <- Hid. auto.
      * destruct (Htext p id Hk) as [[Hx Hy]|[f [Hf Hid]]].
        -- rewrite Ht1. split; [exact Hx|auto].
        -- exfalso. assert (existsb (fun f => N.eqb id (fst f)) (map (fun f => (cf_id f, Some (text_at v (cf_id f)))) files) = true); [|congruence].
           apply existsb_changed. eauto.
    + intros id Hin. apply Hm. unfold mentioned in *. rewrite !in_app_iff in *. cbn [flat_map In] in Hin.
      rewrite done_ids_app, in_app_iff in Hin. destruct Hin as [?|[?|[[]|[?|Hin]]]]; auto.
      apply jobs_cut_ids in Hin. auto.
    + intros id b Hin. apply in_app_iff in Hin as [Hin|Hin]; [eapply Hnr; eauto|eapply jobs_cut_no_response; eauto].
Qed.

(** ** The rest of a turn *)
Lemma is_quiescent_mid s : mid s -> is_quiescent s = true.
Proof. intros M. unfold is_quiescent. rewrite (m_progress _ _ _ _ _ _ _ _ _ M). reflexivity. Qed.

(** the ids of the open documents *)
Lemma map_res_ids v l : vfs_ok v -> (forall p, In p l -> In p (v_interner v)) ->
  exists ids, map_res (fun p => let! o := vfs_file_id v p in unwrap o) l = Ok ids /\ Forall2 (fun id p => known v id p) ids l.
Proof.
  intros Hv. induction l as [|p l IH]; intros Hl; cbn [map_res]; [exists []; split; [auto|constructor]|].
  destruct (In_known v p) as [id Hk]; [apply Hl; left; auto|].
  destruct (proj2 Hv p (known_In _ _ _ Hk)) as [comps [t [_ [_ Hc]]]].
  rewrite (known_file_id _ _ _ _ Hk Hc). cbn [bind unwrap].
  destruct IH as [ids [Hi Hf]]; [intros q Hq; apply Hl; right; auto|]. rewrite Hi. cbn [bind].
  exists (id :: ids). split; [auto|constructor; auto].
Qed.
Lemma Forall2_In_l {A B} (R : A -> B -> Prop) l m x : Forall2 R l m -> In x l -> exists y, In y m /\ R x y.
Proof. induction 1; cbn; intros []; [subst; eauto|]. destruct IHForall2 as [z [? ?]]; auto. exists z; auto. Qed.
Lemma Forall2_In_r {A B} (R : A -> B -> Prop) l m y : Forall2 R l m -> In y m -> exists x, In x l /\ R x y.
Proof. induction 1; cbn; intros []; [subst; eauto|]. destruct IHForall2 as [z [? ?]]; auto. exists z; auto. Qed.

(** what publishing one file sends *)
Definition publication (s : state) (id : N) : list output :=
  match vfs_file_path (s_vfs s) id with
  | Ok (Real comps) =>
      if root_is_library (s_roots s) (Real comps) then []
      else [OPublish (UFile comps) (alookup vpath_eqb (Real comps) (s_docs s)) (diagnostics_for (s_diags s) id)]
  | _ => []
  end.
Lemma publish_spec s ids : inv s -> (forall id, In id ids -> exists p, known (s_vfs s) id p) ->
  publish s ids = Ok (flat_map (publication s) ids).
Proof.
  intros [M Hnc]. induction ids as [|id ids IH]; intros Hk; cbn [publish flat_map]; [reflexivity|].
  destruct (Hk id) as [p Hp]; [left; auto|].
  destruct (proj2 (m_vfs _ _ _ _ _ _ _ _ _ M) p (known_In _ _ _ Hp)) as [comps [t [-> [_ Hc]]]].
  destruct (m_root _ _ _ _ _ _ _ _ _ M _ _ Hp) as [[root [R1 [R2 [R3 _]]]]|[f [Hf _]]]; [|rewrite Hnc in Hf; destruct Hf].
  unfold file_source_root, get_source_root. rewrite R1. cbn [unwrap bind]. rewrite R2. cbn [unwrap bind].
  unfold publication at 1. rewrite R3, (known_path _ _ _ Hp). cbn [bind unwrap].
  rewrite IH by (intros i Hi; apply Hk; right; auto). cbn [bind].
  destruct (root_is_library _ _); reflexivity.
Qed.

Section Turn.
  Context (ho : hash_order).

  Lemma ord_In {A} (l : list A) x : In x (ord ho A l) <-> In x l.
  Proof. split; apply Permutation_in; [apply ord_perm|apply Permutation_sym, ord_perm]. Qed.

  Lemma update_diagnostics_spec s : inv s ->
    exists ids, update_diagnostics ho s = Ok (with_tasks s (s_jobs s ++ [{| jb_db := s_db s; jb_files := ids |}]) (s_done s)) /\
      Forall2 (fun id p => known (s_vfs s) id p) ids (ord ho _ (map fst (s_docs s))) /\
      inv (with_tasks s (s_jobs s ++ [{| jb_db := s_db s; jb_files := ids |}]) (s_done s)).
  Proof.
    intros [M Hnc]. unfold update_diagnostics.
    destruct (map_res_ids (s_vfs s) (ord ho _ (map fst (s_docs s)))) as [ids [Hi Hf]].
    - apply (m_vfs _ _ _ _ _ _ _ _ _ M).
    - intros p Hp. apply (proj1 (ord_In _ _)) in Hp. apply (m_docs _ _ _ _ _ _ _ _ _ M); auto.
    - rewrite Hi. cbn [bind]. exists ids. split; [reflexivity|]. split; [exact Hf|].
      split; [|exact Hnc]. destruct M as [Hcfg Hv Hch Hroot Htext Hdn Hd Hm Hj Hp Hck Hnr].
      unfold mid. cbn [s_roots s_vfs s_endings s_db s_docs s_diags s_jobs s_done s_progress with_tasks]. split; auto.
      + intros id Hin. unfold mentioned in *. rewrite !in_app_iff in Hin. rewrite flat_map_app, in_app_iff in Hin.
        cbn [flat_map jb_files] in Hin. rewrite app_nil_r in Hin.
        assert (Hids : In id ids -> exists p, known (s_vfs s) id p).
        { intros H. destruct (Forall2_In_l _ _ _ _ Hf H) as [p [_ Hp']]. eauto. }
        destruct Hin as [?|[?|[[?|?]|?]]]; auto; apply Hm; rewrite !in_app_iff; auto.
      + intros j id Hin Hid. apply in_app_iff in Hin as [Hin|[<-|[]]]; [apply Hj; auto|].
        cbn [jb_db jb_files] in *. destruct (Forall2_In_l _ _ _ _ Hf Hid) as [p [_ Hp']].
        destruct (Htext p id Hp') as [[H1 H2]|[f [Hin _]]]; [|rewrite Hnc in Hin; destruct Hin].
        rewrite H1. split; [discriminate|auto].
  Qed.

  Definition turn_job (s s' : state) : Prop :=
    exists ids, s_jobs s' = (if vfs_has_changes (s_vfs s) then [] else s_jobs s) ++ [{| jb_db := s_db s'; jb_files := ids |}] /\
      Forall2 (fun id p => known (s_vfs s') id p) ids (ord ho _ (map fst (s_docs s'))).

  Record turned (s : state) (was_quiescent : bool) (cuts : list nat) (s' : state) (out : list output) : Prop := {
    t_inv : inv s';
    t_front : same_front s s';
    t_docs_changed : s_docs_changed s' = false;
    t_native : dc_native (s_diags s') = dc_native (s_diags s);
    t_check : dc_check (s_diags s') = dc_check (s_diags s);
    t_changes : dc_changes (s_diags s') = [];
    t_done : s_done s' = s_done s ++ (if vfs_has_changes (s_vfs s) then jobs_cut (s_endings s') (s_jobs s) cuts else []);
    t_db : vfs_has_changes (s_vfs s) = false -> s_db s' = s_db s /\ s_endings s' = s_endings s;
    t_jobs : if negb was_quiescent || vfs_has_changes (s_vfs s) || s_docs_changed s
             then turn_job s s' else s_jobs s' = s_jobs s;
    t_out : out = flat_map (publication s') (ord ho _ (dc_changes (s_diags s)))
  }.

  Lemma finish_turn_spec s wq cuts : mid s ->
    exists s' out, finish_turn ho s wq cuts = Ok (s', out) /\ turned s wq cuts s' out.
  Proof.
    intros M. unfold finish_turn.
    destruct (process_changes_spec s cuts M) as [s1 [H1 [I1 [F1 [D1 [G1 K1]]]]]].
    rewrite H1. cbn [bind]. set (s2 := with_docs s1 (s_docs s1) false).
    assert (I2 : inv s2) by exact I1.
    rewrite (is_quiescent_mid s2 (proj1 I2)). cbn [andb]. rewrite D1.
    set (go := negb wq || vfs_has_changes (s_vfs s) || s_docs_changed s).
    assert (Hs3 : exists s3, (if go then update_diagnostics ho s2 else Ok s2) = Ok s3 /\ inv s3 /\ same_front s2 s3 /\
      s_diags s3 = s_diags s /\ s_done s3 = s_done s1 /\ s_endings s3 = s_endings s1 /\ s_db s3 = s_db s1 /\
      s_docs_changed s3 = false /\
      (if go then turn_job s s3 else s_jobs s3 = s_jobs s)).
    { assert (HJ : s_jobs s1 = if vfs_has_changes (s_vfs s) then [] else s_jobs s).
      { destruct (vfs_has_changes (s_vfs s)); [apply K1|rewrite K1; reflexivity]. }
      destruct go eqn:Ego.
      - destruct (update_diagnostics_spec s2 I2) as [ids [Hu [Hf Hi]]]. rewrite Hu.
        eexists. split; [reflexivity|]. split; [exact Hi|]. split; [split; reflexivity|].
        split; [exact G1|]. repeat (split; [reflexivity|]).
        exists ids. cbn [s_jobs with_tasks s_db]. split; [|exact Hf].
        change (s_jobs s2) with (s_jobs s1). rewrite HJ. reflexivity.
      - exists s2. split; [reflexivity|]. split; [exact I2|]. split; [apply same_front_refl|].
        split; [exact G1|]. repeat (split; [reflexivity|]). change (s_jobs s2) with (s_jobs s1). rewrite HJ.
        destruct (vfs_has_changes (s_vfs s)) eqn:Eh; [|reflexivity]. unfold go in Ego. rewrite orb_true_r in Ego. discriminate. }
    destruct Hs3 as [s3 [H3 [I3 [F3 [G3 [DN3 [E3 [DB3 [DC3 J3]]]]]]]]]. rewrite H3. cbn [bind].
    assert (F : same_front s s3). { eapply same_front_trans; [exact F1|]. destruct F3; split; assumption. }
    rewrite G3.
    assert (Htc : exists diags, take_changes (s_diags s) = (diags, match dc_changes (s_diags s) with [] => None | l => Some l end) /\
      dc_native diags = dc_native (s_diags s) /\ dc_check diags = dc_check (s_diags s) /\ dc_changes diags = []).
    { unfold take_changes. destruct (dc_changes (s_diags s)) eqn:Ec.
      - exists (s_diags s). auto.
      - eexists. split; [reflexivity|]. auto. }
    destruct Htc as [diags [Ht [T1 [T2 T3]]]]. rewrite Ht.
    assert (I4 : inv (with_diags s3 diags)).
    { destruct I3 as [M3 Hn3]. split; [|exact Hn3]. destruct M3 as [Hcfg Hv Hch Hroot Htext Hdn Hd Hm Hj Hp Hck Hnr].
      unfold mid. cbn [s_roots s_vfs s_endings s_db s_docs s_diags s_jobs s_done s_progress with_diags].
      rewrite G3 in *. split; auto.
      - intros id Hin. apply Hm. unfold mentioned in *. rewrite T1, T3 in Hin. rewrite !in_app_iff in *. cbn [In] in Hin. tauto.
      - rewrite T2. exact Hck. }
    assert (Hout : (match match dc_changes (s_diags s) with [] => None | l => Some l end with
                    | Some ids => publish (with_diags s3 diags) (ord ho _ ids) | None => Ok [] end)
                   = Ok (flat_map (publication (with_diags s3 diags)) (ord ho _ (dc_changes (s_diags s))))).
    { assert (Hp : publish (with_diags s3 diags) (ord ho _ (dc_changes (s_diags s))) =
                   Ok (flat_map (publication (with_diags s3 diags)) (ord ho _ (dc_changes (s_diags s))))).
      { apply publish_spec; [exact I4|]. intros id Hid. apply (proj1 (ord_In _ _)) in Hid.
        apply (m_mentioned _ _ _ _ _ _ _ _ _ (proj1 I3)). unfold mentioned. rewrite G3, in_app_iff. auto. }
      destruct (dc_changes (s_diags s)) eqn:Ec; [|exact Hp].
      assert (Hn : ord ho N [] = []). { apply Permutation_nil. apply Permutation_sym, ord_perm. }
      rewrite Hn. reflexivity. }
    rewrite Hout. cbn [bind]. eexists _, _. split; [reflexivity|].
    split; cbn [s_diags with_status with_diags s_docs_changed s_done s_jobs]; auto.
    - split; apply F.
    - rewrite DN3. cbn [s_endings with_status with_diags]. rewrite E3.
      destruct (vfs_has_changes (s_vfs s)); [apply K1|rewrite K1; rewrite app_nil_r; reflexivity].
    - intros Hn. rewrite Hn in K1. cbn [s_db s_endings with_status with_diags]. rewrite DB3, E3, K1. auto.
  Qed.
End Turn.

(** ** Writing a document *)
Lemma vfs_set_interner v p c v' b q : vfs_set v p c = Ok (v', b) -> In q (v_interner v') -> In q (v_interner v) \/ q = p.
Proof.
  unfold vfs_set, vfs_alloc, interner_intern. destruct (index_of p (v_interner v)) as [i|].
  - destruct (_ <? _); cbn [bind]; [|discriminate]. cbn [v_interner v_data v_changes]. unfold vfs_get.
    destruct (index _) as [old| |]; cbn [bind]; try discriminate.
    destruct old, c; try destruct (bytes_eqb _ _); intros H; injection H as <- <-; cbn [v_interner]; auto.
  - destruct (_ <? _); cbn [bind]; [|discriminate]. cbn [v_interner v_data v_changes]. unfold vfs_get.
    destruct (index _) as [old| |]; cbn [bind]; try discriminate.
    destruct old, c; try destruct (bytes_eqb _ _); intros H; injection H as <- <-; cbn [v_interner];
      rewrite in_app_iff; cbn [In]; intuition.
Qed.
Lemma vfs_set_adds v p c v' b : vfs_inv v -> vfs_set v p c = Ok (v', b) -> In p (v_interner v').
Proof. intros Hi H. destruct (vfs_set_spec v p c v' b Hi H) as [id [_ [Hk _]]]. apply index_of_Some in Hk. eapply nth_error_In; eauto. Qed.
Lemma known_ext v v' ext id p : v_interner v' = v_interner v ++ ext -> known v id p -> known v' id p.
Proof. unfold known. intros ->. apply index_of_app_l. Qed.

Lemma core_write c v e db docs diags jobs done progress comps t v' b :
  core c v e db docs diags jobs done progress -> v_changes v = [] ->
  vfs_set v (Real comps) (Some (encode t)) = Ok (v', b) -> scalars t ->
  core c v' e db docs diags jobs done progress.
Proof.
  intros M Hnc Hset Hs. destruct M as [Hcfg [Hvi Hvc] Hch Hroot Htext Hdn Hd Hm Hj Hp Hck Hnr].
  destruct (vfs_set_spec _ _ _ _ _ Hvi Hset) as [id [Hi' [Hk [Hc [Hco [[ext Hext] [Hb [Hchg _]]]]]]]].
  rewrite Hnc in Hchg. cbn [app] in Hchg.
  set (p := Real comps) in *.
  assert (Hback : forall q i, q <> p -> known v' i q -> known v i q /\ contents v' q = contents v q /\ text_at v' i = text_at v i).
  { intros q i Hq Hkq. destruct (vfs_set_interner _ _ _ _ _ q Hset (known_In _ _ _ Hkq)) as [Hin|?]; [|contradiction].
    destruct (In_known v q Hin) as [j Hj']. pose proof (known_ext v v' ext j q Hext Hj') as Hj2.
    assert (i = j) by (eapply known_fun; eauto). subst j. split; auto. split; auto.
    destruct (Hvc q Hin) as [cs [tq [_ [Hsq Hcq]]]].
    rewrite (known_text v i q tq); auto. apply (known_text v' i q tq); auto. rewrite Hco; auto. }
  assert (Hvok : forall q, In q (v_interner v') -> exists comps t, q = Real comps /\ scalars t /\ contents v' q = Some (encode t)).
  { intros q Hq. destruct (vfs_set_interner _ _ _ _ _ q Hset Hq) as [Hin| ->].
    - destruct (index_of p [q]) eqn:E.
      + assert (p = q). { cbn in E. destruct (vpath_eqb q p) eqn:E2; [apply vpath_eqb_eq in E2; auto|discriminate]. }
        subst q. exists comps, t. auto.
      + assert (q <> p). { cbn in E. destruct (vpath_eqb q p) eqn:E2; [discriminate|]. apply vpath_eqb_neq in E2; auto. }
        destruct (Hvc q Hin) as [cs [tq [Hq1 [Hq2 Hq3]]]]. exists cs, tq. rewrite Hco; auto.
    - exists comps, t. auto. }
  assert (Hdec : forall q, q = p \/ q <> p).
  { intros q. destruct (vpath_eqb q p) eqn:E; [apply vpath_eqb_eq in E; auto|apply vpath_eqb_neq in E; auto]. }
  assert (Hold : contents v p = None \/ exists told, scalars told /\ contents v p = Some (encode told) /\ known v id p).
  { destruct (contents v p) as [old|] eqn:Eo; [|left; auto]. right.
    assert (Hin : In p (v_interner v)).
    { unfold contents in Eo. destruct (index_of p (v_interner v)) eqn:Ei; [|discriminate]. apply index_of_Some in Ei. eapply nth_error_In; eauto. }
    destruct (Hvc p Hin) as [cs [told [_ [H1 H2]]]]. exists told. rewrite <- H2, Eo. split; auto. split; auto.
    destruct (In_known v p Hin) as [j Hj']. pose proof (known_ext v v' ext j p Hext Hj'). assert (j = id) by (eapply known_fun; eauto). subst; auto. }
  split; auto.
  - split; auto.
  - intros f Hf. rewrite Hchg in Hf. destruct b; [|destruct Hf]. destruct Hf as [<-|[]]. cbn [cf_id]. split; [|eauto].
    unfold cf_exists. cbn [cf_kind]. destruct (contents v p); reflexivity.
  - intros q i Hkq. destruct (Hdec q) as [-> |Hq].
    + assert (i = id) by (eapply known_fun; eauto). subst i.
      destruct Hold as [Hn|[told [_ [_ Hkv]]]].
      * right. rewrite Hn in Hb. cbn in Hb. subst b. rewrite Hchg, Hn. eexists. split; [left; reflexivity|]. auto.
      * left. destruct (Hroot p id Hkv) as [?|[f [Hf _]]]; auto. rewrite Hnc in Hf. destruct Hf.
    + destruct (Hback q i Hq Hkq) as [Hkv _]. left. destruct (Hroot q i Hkv) as [?|[f [Hf _]]]; auto. rewrite Hnc in Hf; destruct Hf.
  - intros q i Hkq. destruct (Hdec q) as [-> |Hq].
    + assert (i = id) by (eapply known_fun; eauto). subst i. destruct b.
      * right. rewrite Hchg. eexists. split; [left; reflexivity|]. reflexivity.
      * left. symmetry in Hb. apply negb_false_iff in Hb. apply opt_bytes_eqb_eq in Hb.
        destruct Hold as [Hn|[told [Hs1 [Hc1 Hkv]]]]; [congruence|].
        destruct (Htext p id Hkv) as [?|[f [Hf _]]]; [|rewrite Hnc in Hf; destruct Hf].
        rewrite (known_text v' id p t Hk Hc Hs). rewrite <- (known_text v id p t Hkv Hb Hs). auto.
    + destruct (Hback q i Hq Hkq) as [Hkv [_ Ht]]. left. rewrite Ht.
      destruct (Htext q i Hkv) as [?|[f [Hf _]]]; auto. rewrite Hnc in Hf; destruct Hf.
  - intros q Hq. rewrite Hext, in_app_iff. left; auto.
  - intros i Hin. destruct (Hm i Hin) as [q Hq]. exists q. eapply known_ext; eauto.
Qed.

Definition too_many_files (s : state) : Prop := u32_max <= N.of_nat (length (v_interner (s_vfs s))).
Lemma vfs_set_outcome v p c : vfs_inv v ->
  (exists v' b, vfs_set v p c = Ok (v', b)) \/
  (u32_max <= N.of_nat (length (v_interner v)) /\ exists w, vfs_set v p c = Panic w).
Proof.
  intros Hi. destruct (N.ltb_spec (N.of_nat (length (v_interner v))) u32_max) as [Hlt|Hge].
  - left. apply vfs_set_total; auto.
  - destruct (vfs_set v p c) as [[v' b]|w|] eqn:E; eauto.
    exfalso. unfold vfs_set, vfs_alloc, interner_intern in E.
    destruct (index_of p (v_interner v)); destruct (_ <? _); cbn [bind] in E; try discriminate;
      unfold vfs_get in E; destruct (nth_error _ _) as [[|]|]; cbn [index bind] in E; try discriminate;
      destruct c; try discriminate; destruct (bytes_eqb _ _); discriminate.
Qed.

Lemma core_docs c v e db docs docs' diags jobs done progress :
  core c v e db docs diags jobs done progress ->
  NoDup (map fst docs') -> (forall p, In p (map fst docs') -> In p (v_interner v)) ->
  core c v e db docs' diags jobs done progress.
Proof. intros [] ? ?. split; auto. Qed.

(** ** Edits keep texts valid *)
Definition change_scalars (ch : change) : Prop := scalars (ch_text ch).
Lemma replace_range_scalars t s e new t' : scalars t -> scalars new -> replace_range t s e new = Ok t' -> scalars t'.
Proof.
  intros Ht Hn. unfold replace_range. destruct (split_at t s) as [[a b]|] eqn:E1; [|discriminate].
  destruct (split_at t e) as [[a' b']|] eqn:E2; [|discriminate].
  destruct (_ <=? _); [|discriminate]. intros H; injection H as <-.
  apply split_at_spec in E1 as [-> _]. apply split_at_spec in E2 as [E2 _].
  rewrite E2 in Ht at 1. apply scalars_app in Ht as Ht2.
  assert (Ha : scalars (a ++ b)) by (rewrite E2; auto). apply scalars_app in Ha.
  rewrite !scalars_app. tauto.
Qed.
Lemma changes_loop_scalars chs : forall t li valid t',
  scalars t -> Forall change_scalars chs -> changes_loop (t, li, valid) chs = Ok t' -> scalars t'.
Proof.
  induction chs as [|ch chs IH]; intros t li valid t' Ht Hc; cbn [changes_loop].
  - intros H; injection H as <-. auto.
  - inversion Hc as [|? ? Hc1 Hc2]; subst. unfold change_step at 1. destruct (ch_range ch) as [r|].
    + destruct (if negb (covers valid (p_line (r_end r))) then li_new t else Ok li) as [li'| |]; cbn [bind]; try discriminate.
      destruct (fp_text_range Utf16 li' r) as [[a b]| |]; cbn [bind]; try discriminate.
      destruct (replace_range t a b (ch_text ch)) as [t1| |] eqn:E; cbn [bind]; try discriminate.
      apply IH; auto. exact (replace_range_scalars t a b (ch_text ch) t1 Ht Hc1 E).
    + cbn [bind]. apply IH; auto.
Qed.
Lemma apply_changes_scalars t chs t' :
  scalars t -> Forall change_scalars chs -> apply_document_changes t chs = Ok t' -> scalars t'.
Proof.
  intros Ht Hc. unfold apply_document_changes. destruct (li_new t); cbn [bind]; try discriminate.
  apply changes_loop_scalars; auto.
Qed.

(** ** Notifications about documents *)
Lemma did_open_spec s p : inv s -> scalars (op_text p) ->
  match vfs_path (op_url p) with
  | None => did_open s p = Ok s
  | Some path =>
      (exists v' b, vfs_set (s_vfs s) path (Some (encode (op_text p))) = Ok (v', b) /\
         did_open s p = Ok (with_vfs (with_docs s (ainsert vpath_eqb path (op_version p) (s_docs s)) true) v') /\
         mid (with_vfs (with_docs s (ainsert vpath_eqb path (op_version p) (s_docs s)) true) v')) \/
      (too_many_files s /\ exists w, did_open s p = Panic w)
  end.
Proof.
  intros [M Hnc] Hs. unfold did_open. destruct (op_url p) as [comps|]; cbn [vfs_path]; [|reflexivity].
  pose proof (proj1 (m_vfs _ _ _ _ _ _ _ _ _ M)) as Hvi. cbn [s_vfs with_docs].
  destruct (vfs_set_outcome (s_vfs s) (Real comps) (Some (encode (op_text p))) Hvi) as [[v' [b H]]|[Hm [w H]]].
  - left. exists v', b. split; [auto|]. rewrite H. cbn [bind]. split; [reflexivity|].
    pose proof (core_write _ _ _ _ _ _ _ _ _ _ _ _ _ M Hnc H Hs) as M'.
    apply core_docs with (docs := s_docs s); auto.
    + apply ainsert_NoDup; [apply vpath_eqb_eq|]. apply (m_docs_nodup _ _ _ _ _ _ _ _ _ M).
    + intros q Hq. apply ainsert_keys in Hq; [|apply vpath_eqb_eq]. destruct Hq as [->|Hq].
      * eapply vfs_set_adds; eauto.
      * apply (m_docs _ _ _ _ _ _ _ _ _ M'); auto.
  - right. split; [exact Hm|]. rewrite H. cbn [bind]. eauto.
Qed.

Lemma open_contents s path ver : inv s -> alookup vpath_eqb path (s_docs s) = Some ver ->
  exists comps t id, path = Real comps /\ scalars t /\ contents (s_vfs s) path = Some (encode t) /\
    vfs_file_id (s_vfs s) path = Ok (Some id) /\ vfs_file_contents (s_vfs s) id = Ok (encode t).
Proof.
  intros [M Hnc] H. assert (Hin : In path (map fst (s_docs s))).
  { apply alookup_In in H; [|apply vpath_eqb_eq]. apply in_map_iff. exists (path, ver). auto. }
  apply (m_docs _ _ _ _ _ _ _ _ _ M) in Hin. destruct (In_known _ _ Hin) as [id Hk].
  destruct (proj2 (m_vfs _ _ _ _ _ _ _ _ _ M) path Hin) as [comps [t [-> [Hs Hc]]]].
  exists comps, t, id. repeat split; auto; [eapply known_file_id|eapply known_contents]; eauto.
Qed.

Lemma did_change_spec s p : inv s -> Forall change_scalars (cp_changes p) ->
  match vfs_path (cp_url p) with
  | None => did_change s p = Ok s
  | Some path =>
      match alookup vpath_eqb path (s_docs s) with
      | None => did_change s p = Ok s
      | Some _ =>
          exists t, scalars t /\ contents (s_vfs s) path = Some (encode t) /\
          let s1 := with_docs s (ainsert vpath_eqb path (cp_version p) (s_docs s)) (s_docs_changed s) in
          match apply_document_changes t (cp_changes p) with
          | Ok t' =>
              scalars t' /\
              ((exists v' b, vfs_set (s_vfs s) path (Some (encode t')) = Ok (v', b) /\
                 did_change s p = Ok (with_vfs s1 v') /\ mid (with_vfs s1 v')) \/
               (too_many_files s /\ exists w, did_change s p = Panic w))
          | Panic w => did_change s p = Panic w
          | Fuel => did_change s p = Fuel
          end
      end
  end.
Proof.
  intros I Hc. unfold did_change. destruct (vfs_path (cp_url p)) as [path|] eqn:Ep; [|reflexivity].
  destruct (alookup vpath_eqb path (s_docs s)) as [ver|] eqn:Ed; [|reflexivity].
  destruct (open_contents s path ver I Ed) as [comps [t [id [-> [Hs [Hcon [Hid Hct]]]]]]].
  exists t. split; [auto|]. split; [auto|]. cbn zeta. cbn [s_vfs with_docs]. rewrite Hid. cbn [bind unwrap].
  rewrite Hct. cbn [bind]. rewrite decode_encode by auto. cbn [unwrap bind].
  destruct (apply_document_changes t (cp_changes p)) as [t'|w|] eqn:Ea; cbn [bind]; auto.
  assert (Hs' : scalars t') by (eapply apply_changes_scalars; eauto). split; [exact Hs'|].
  destruct I as [M Hnc]. pose proof (proj1 (m_vfs _ _ _ _ _ _ _ _ _ M)) as Hvi.
  destruct (vfs_set_outcome (s_vfs s) (Real comps) (Some (encode t')) Hvi) as [[v' [b H]]|[Hm [w H]]].
  - left. exists v', b. split; [auto|]. rewrite H. cbn [bind]. split; [reflexivity|].
    pose proof (core_write _ _ _ _ _ _ _ _ _ _ _ _ _ M Hnc H Hs') as M'.
    apply core_docs with (docs := s_docs s); auto.
    + apply ainsert_NoDup; [apply vpath_eqb_eq|]. apply (m_docs_nodup _ _ _ _ _ _ _ _ _ M).
    + intros q Hq. apply ainsert_keys in Hq; [|apply vpath_eqb_eq]. destruct Hq as [->|Hq].
      * eapply vfs_set_adds; eauto.
      * apply (m_docs _ _ _ _ _ _ _ _ _ M'); auto.
  - right. split; [exact Hm|]. rewrite H. cbn [bind]. eauto.
Qed.
Lemma did_close_spec s u : inv s -> mid (did_close s u).
Proof.
  intros [M Hnc]. unfold did_close. destruct (vfs_path u) as [path|]; [|exact M].
  apply core_docs with (docs := s_docs s); auto.
  - apply (aremove_NoDup _ vpath_eqb_eq). apply (m_docs_nodup _ _ _ _ _ _ _ _ _ M).
  - intros q Hq. apply (aremove_keys _ vpath_eqb_eq) in Hq as [_ Hq]. apply (m_docs _ _ _ _ _ _ _ _ _ M); auto.
Qed.
