(** Diagnostics along a run in which results are delivered in order. *)
From Coq Require Import String Permutation.
From Verif Require Import Base BaseProofs Utf8 Utf8Proofs LineIndex LineEndings Vfs VfsSpec VfsProofs FileSet
  DocChanges Sink Database DatabaseProofs Diagnostics Server ServerSpec ServerInv ServerRun ServerTheorems DiagSpec DiagProofs.
Local Open Scope N_scope.

(** ** Diagnostics made by the server *)
Definition made (d : lsp_diag) : Prop :=
  d_severity d = Some Error /\ d_code d = `"syntax-error" /\ d_source d = Some (`"move-language-server") /\ d_unused d = false.
Lemma made_equal d e : made d -> made e -> are_diagnostics_equal d e = true -> d = e.
Proof.
  destruct d as [[[a b] [a2 b2]] sv cd so ms un], e as [[[c d] [c2 d2]] sv' cd' so' ms' un'].
  unfold made, are_diagnostics_equal, range_eq, pos_eq. cbn.
  intros (-> & -> & -> & ->) (-> & -> & -> & ->) H. rewrite !andb_true_iff in H. rewrite !N.eqb_eq in H.
  destruct H as [[_ [[-> ->] [-> ->]]] Hm]. apply text_eqb_eq in Hm as ->. reflexivity.
Qed.
Lemma zip_all_made l : forall m, Forall made l -> Forall made m -> length l = length m ->
  zip_all are_diagnostics_equal l m = true -> l = m.
Proof.
  induction l as [|d l IH]; intros [|e m] Hl Hm L H; try discriminate; [reflexivity|]. cbn in H. apply andb_true_iff in H as [H1 H2].
  inversion Hl; inversion Hm; subst. injection L as L. f_equal; [apply made_equal; auto|apply IH; auto].
Qed.
Lemma map_res_In {A B} (f : A -> res B) l : forall ys, map_res f l = Ok ys -> forall y, In y ys -> exists x, In x l /\ f x = Ok y.
Proof.
  induction l as [|x l IH]; intros ys; cbn [map_res]; [intros H; injection H as <-; intros y []|].
  destruct (f x) as [y0| |] eqn:E; cbn [bind]; try discriminate. destruct (map_res f l) as [r| |]; cbn [bind]; try discriminate.
  intros H; injection H as <-. intros y [<-|Hy]; [exists x; split; [left; reflexivity|exact E]|].
  destruct (IH r eq_refl y Hy) as (z & Hz & Ez). exists z. split; [right; exact Hz|exact Ez].
Qed.
Lemma published_made e db id ds : publish_diagnostics e db id = Ok ds -> Forall made ds.
Proof.
  unfold publish_diagnostics. destruct (index _); cbn [bind]; try discriminate. destruct (file_text db id); cbn [bind]; try discriminate.
  destruct (li_new _) as [li| |]; cbn [bind]; try discriminate. destruct (file_diagnostics db id) as [l| |]; cbn [bind]; try discriminate.
  intros H. rewrite Forall_forall. intros d Hd. destruct (map_res_In _ _ _ H d Hd) as (x & _ & Hx). unfold to_lsp in Hx.
  destruct (tp_range _ _ _ _); cbn [bind] in Hx; try discriminate. injection Hx as <-. repeat split.
Qed.
Lemma job_files_In e db files : forall cut l, job_files e db files cut = Ok l ->
  forall id ds, In (id, ds) l -> publish_diagnostics e db id = Ok ds.
Proof.
  induction files as [|i files IH]; intros cut l; cbn [job_files]; [destruct cut; intros H; injection H as <-; intros id ds []|].
  destruct cut as [|cut]; [intros H; injection H as <-; intros id ds []|].
  destruct (publish_diagnostics e db i) as [d| |] eqn:E; cbn [bind]; try discriminate.
  destruct (job_files e db files cut) as [r| |] eqn:E2; cbn [bind]; try discriminate.
  intros H; injection H as <-. intros id ds [X|X]; [injection X as <- <-; exact E|eapply IH; eauto].
Qed.
Lemma job_files_all e db files : forall l, job_files e db files (length files) = Ok l ->
  forall id, In id files -> exists ds, In (id, ds) l.
Proof.
  induction files as [|i files IH]; intros l; cbn [job_files length]; [intros _ id []|].
  destruct (publish_diagnostics e db i) as [d| |] eqn:E; cbn [bind]; try discriminate.
  destruct (job_files e db files (length files)) as [r| |] eqn:E2; cbn [bind]; try discriminate.
  intros H; injection H as <-. intros id [->|X]; [exists d; left; reflexivity|].
  destruct (IH r eq_refl id X) as [ds Hds]. exists ds. right. exact Hds.
Qed.
(** the line endings map is only asked whether it knows the file *)
Lemma publish_endings e e' db id : alookup N.eqb id e <> None -> alookup N.eqb id e' <> None ->
  publish_diagnostics e db id = publish_diagnostics e' db id.
Proof.
  intros H H'. unfold publish_diagnostics. destruct (alookup N.eqb id e); [|contradiction]. destruct (alookup N.eqb id e'); [|contradiction]. reflexivity.
Qed.

(** ** The collection *)
Definition tmade (t : task) : Prop := match t with TDiagnostics l => Forall (fun p => Forall made (snd p)) l | TResponse _ _ => True end.
Definition nmade (c : collection) : Prop := forall id ds, alookup N.eqb id (dc_native c) = Some ds -> Forall made ds.
Lemma job_run_made e j cut : Forall tmade (job_run e j cut).
Proof.
  unfold job_run. destruct (job_files _ _ _ _) as [l| |] eqn:E; constructor; [|constructor].
  cbn [tmade]. rewrite Forall_forall. intros [id ds] H. cbn [snd]. eapply published_made. eapply job_files_In; eauto.
Qed.
Lemma jobs_cut_made e jobs : forall cuts, Forall tmade (jobs_cut e jobs cuts).
Proof. induction jobs as [|j jobs IH]; intros cuts; cbn [jobs_cut]; [constructor|]. apply Forall_app. split; [apply job_run_made|apply IH]. Qed.

(** Setting an entry: exact for diagnostics the server made. *)
Lemma set_native_cases c id ds : nmade c -> Forall made ds ->
  (set_native_diagnostics c id ds = c /\ alookup N.eqb id (dc_native c) = Some ds) \/
  set_native_diagnostics c id ds =
    {| dc_native := ainsert N.eqb id ds (dc_native c); dc_check := dc_check c; dc_fixes := dc_fixes c;
       dc_changes := set_insert id (dc_changes c) |}.
Proof.
  intros Hn Hd. unfold set_native_diagnostics.
  destruct (match alookup N.eqb id (dc_native c) with Some _ => _ | None => _ end) eqn:E; [left|right; reflexivity].
  split; [reflexivity|]. destruct (alookup N.eqb id (dc_native c)) as [old|] eqn:El; [|discriminate].
  apply andb_true_iff in E as [E1 E2]. apply Nat.eqb_eq in E1. f_equal. symmetry. apply zip_all_made; auto. apply (Hn id); auto.
Qed.

(** what absorbing results does *)
Record absorbed (c c' : collection) : Prop := {
  ab_made : nmade c';
  ab_same : forall i, ~ In i (dc_changes c') -> alookup N.eqb i (dc_native c') = alookup N.eqb i (dc_native c);
  ab_some : forall i, In i (dc_changes c') -> In i (dc_changes c) \/ alookup N.eqb i (dc_native c') <> None;
  ab_keep : forall i, alookup N.eqb i (dc_native c) <> None -> alookup N.eqb i (dc_native c') <> None;
  ab_mono : forall i, In i (dc_changes c) -> In i (dc_changes c')
}.
Lemma absorbed_refl c : nmade c -> absorbed c c.
Proof. intros H. split; auto. Qed.
Lemma absorbed_trans a b c : absorbed a b -> absorbed b c -> absorbed a c.
Proof.
  intros H1 H2. split.
  - apply H2.
  - intros i Hi. rewrite (ab_same _ _ H2 i Hi). apply (ab_same _ _ H1). intros X. apply Hi. apply (ab_mono _ _ H2). exact X.
  - intros i Hi. destruct (ab_some _ _ H2 i Hi) as [X|X]; [|auto]. destruct (ab_some _ _ H1 i X) as [Y|Y]; [auto|].
    right. apply (ab_keep _ _ H2). exact Y.
  - intros i Hi. apply (ab_keep _ _ H2), (ab_keep _ _ H1), Hi.
  - intros i Hi. apply (ab_mono _ _ H2), (ab_mono _ _ H1), Hi.
Qed.
Lemma set_native_absorbed c id ds : nmade c -> Forall made ds ->
  absorbed c (set_native_diagnostics c id ds) /\ alookup N.eqb id (dc_native (set_native_diagnostics c id ds)) = Some ds /\
  forall i, i <> id -> alookup N.eqb i (dc_native (set_native_diagnostics c id ds)) = alookup N.eqb i (dc_native c).
Proof.
  intros Hn Hd. destruct (set_native_cases c id ds Hn Hd) as [[-> Hl]| ->]; [split; [apply absorbed_refl; exact Hn|auto]|].
  assert (L : forall i, alookup N.eqb i (ainsert N.eqb id ds (dc_native c)) = if N.eqb i id then Some ds else alookup N.eqb i (dc_native c)).
  { intros i. destruct (N.eqb_spec i id) as [->|Hi]; [apply (alookup_insert _ Neqb_spec)|apply (alookup_insert_ne _ Neqb_spec); congruence]. }
  split; [|split].
  - split; cbn [dc_native dc_changes].
    + intros i x. cbn [dc_native]. rewrite L. destruct (i =? id); [intros H; injection H as <-; exact Hd|apply Hn].
    + intros i Hi. rewrite L. destruct (N.eqb_spec i id) as [->|]; [|reflexivity]. exfalso. apply Hi. apply set_insert_In. auto.
    + intros i Hi. rewrite L. apply set_insert_In in Hi as [->|Hi]; [|auto]. rewrite N.eqb_refl. right. discriminate.
    + intros i Hi. rewrite L. destruct (i =? id); [discriminate|exact Hi].
    + intros i Hi. apply set_insert_In. auto.
  - cbn [dc_native]. rewrite L, N.eqb_refl. reflexivity.
  - intros i Hi. cbn [dc_native]. rewrite L. apply N.eqb_neq in Hi. rewrite Hi. reflexivity.
Qed.
Lemma set_all_absorbed l : forall c, nmade c -> Forall (fun p => Forall made (snd p)) l ->
  absorbed c (set_all c l) /\
  ((forall id ds ds', In (id, ds) l -> In (id, ds') l -> ds = ds') ->
   forall id ds, In (id, ds) l -> alookup N.eqb id (dc_native (set_all c l)) = Some ds) /\
  forall id, ~ In id (map fst l) -> alookup N.eqb id (dc_native (set_all c l)) = alookup N.eqb id (dc_native c).
Proof.
  induction l as [|[i d] l IH]; intros c Hn Hm; cbn [set_all fold_left].
  - split; [apply absorbed_refl; exact Hn|]. split; [intros _ id ds []|auto].
  - inversion Hm as [|? ? Hd Hm']; subst. cbn [fst snd] in *. destruct (set_native_absorbed c i d Hn Hd) as (A & B & C).
    destruct (IH _ (ab_made _ _ A) Hm') as (A' & B' & C'). fold (set_all (set_native_diagnostics c i d) l) in *.
    split; [eapply absorbed_trans; eauto|]. split.
    + intros F id ds [X|X].
      * injection X as -> ->.
        destruct (in_dec N.eq_dec id (map fst l)) as [Y|Y].
        -- apply in_map_iff in Y as [[i' d'] [Y1 Y2]]. cbn in Y1. subst i'.
           assert (ds = d') as <- by (apply (F id); [left; reflexivity|right; exact Y2]).
           apply B'; [|exact Y2]. intros a b b' X1 X2. apply (F a); right; auto.
        -- rewrite C' by exact Y. exact B.
      * apply B'; [|exact X]. intros a b b' X1 X2. apply (F a); right; auto.
    + intros id Hid. cbn [map fst In] in Hid. rewrite C' by tauto. apply C. intros ->. tauto.
Qed.
Lemma absorb_absorbed ts : forall c, nmade c -> Forall tmade ts -> absorbed c (absorb c ts).
Proof.
  induction ts as [|t ts IH]; intros c Hn Ht; cbn [absorb fold_left]; [apply absorbed_refl; exact Hn|].
  inversion Ht; subst. destruct t as [id b|l]; [apply IH; auto|]. cbn [tmade] in *.
  destruct (set_all_absorbed l c Hn H1) as (A & _). eapply absorbed_trans; [exact A|]. apply IH; [apply A|auto].
Qed.
Lemma absorb_app ts ts' c : absorb c (ts ++ ts') = absorb (absorb c ts) ts'.
Proof. apply fold_left_app. Qed.

(** ** FIFO picks *)
Lemma pick_zeros picks : Forall (fun i => i = 0%nat) picks -> forall bag ts bag', pick_tasks picks bag = (ts, bag') -> bag = ts ++ bag'.
Proof.
  induction 1 as [|i picks -> _ IH]; intros bag ts bag'; cbn [pick_tasks]; [intros H; injection H as <- <-; reflexivity|].
  destruct bag as [|t bag]; cbn [remove_nth]; [apply IH|]. destruct (pick_tasks picks bag) as [ts1 bag1] eqn:E.
  intros H; injection H as <- <-. cbn [app]. f_equal. apply IH. exact E.
Qed.

(** ** The invariant *)
Definition covers (s : state) (ids : list N) : Prop :=
  (forall p, In p (map fst (s_docs s)) -> exists id, In id ids /\ known (s_vfs s) id p) /\
  forall id, In id ids -> exists p, In p (map fst (s_docs s)) /\ known (s_vfs s) id p.
Definition latest (s : state) : Prop :=
  exists ids, covers s ids /\
   ((exists js, s_jobs s = js ++ [{| jb_db := s_db s; jb_files := ids |}]) \/
    (s_jobs s = [] /\ exists ts l, s_done s = ts ++ [TDiagnostics l] /\ job_files (s_endings s) (s_db s) ids (length ids) = Ok l) \/
    (s_jobs s = [] /\ s_done s = [] /\ exists l, job_files (s_endings s) (s_db s) ids (length ids) = Ok l /\
       forall id ds, In (id, ds) l -> alookup N.eqb id (dc_native (s_diags s)) = Some ds) \/
    (s_jobs s = [] /\ forall l, job_files (s_endings s) (s_db s) ids (length ids) <> Ok l)).
(** what the client has been shown is what the collection holds *)
Definition mirrored (s : state) (out : list output) : Prop :=
  forall comps, is_local (s_roots s) comps = true ->
    match index_of (Real comps) (v_interner (s_vfs s)) with
    | Some i => match alookup N.eqb (N.of_nat i) (dc_native (s_diags s)) with
                | Some ds => exists v, last_published comps out = Some (v, ds)
                | None => publications comps out = []
                end
    | None => publications comps out = []
    end.
Record tidy (s : state) : Prop := {
  y_changes : dc_changes (s_diags s) = [];
  y_docs : s_docs_changed s = false;
  y_native : nmade (s_diags s);
  y_done : Forall tmade (s_done s)
}.

(** events and documents *)
Lemma event_docs s m s1 out : inv s -> on_event s m = Ok (s1, out) -> s_docs_changed s = false ->
  (exists ext, v_interner (s_vfs s1) = v_interner (s_vfs s) ++ ext) /\
  (s_docs_changed s1 = true \/
   (s_docs_changed s1 = false /\ forall p, In p (map fst (s_docs s1)) <-> In p (map fst (s_docs s)))).
Proof.
  intros I H Hd. pose proof (proj1 (m_vfs _ _ _ _ _ _ _ _ _ (proj1 I))) as Hi.
  assert (Same : forall s2, s_vfs s2 = s_vfs s -> s_docs s2 = s_docs s -> s_docs_changed s2 = s_docs_changed s ->
    (exists ext, v_interner (s_vfs s2) = v_interner (s_vfs s) ++ ext) /\
    (s_docs_changed s2 = true \/ (s_docs_changed s2 = false /\ forall p, In p (map fst (s_docs s2)) <-> In p (map fst (s_docs s))))).
  { intros s2 E1 E2 E3. rewrite E1, E2, E3. split; [exists []; rewrite app_nil_r; reflexivity|right; split; [exact Hd|intros q; split; auto]]. }
  assert (Resp : forall s id b, s_vfs (fst (respond s id b)) = s_vfs s /\ s_docs (fst (respond s id b)) = s_docs s /\ s_docs_changed (fst (respond s id b)) = s_docs_changed s).
  { intros s2 id b. unfold respond. destruct (alookup _ _ _); auto. }
  destruct m as [r|n|id]; cbn [on_event] in H.
  - injection H as H. assert (s1 = fst (on_request s r)) as -> by (rewrite H; reflexivity).
    unfold on_request. set (s0 := register_request s r). destruct (s_shutdown s0).
    + destruct (Resp s0 (rq_id r) (BErr InvalidRequest)) as (E1 & E2 & E3). apply Same; auto.
    + unfold dispatch_finish, on_sync_mut, dispatch_parse. destruct (text_eqb _ _); [destruct (rq_params r)|].
      * destruct (Resp (with_shutdown s0 true) (rq_id r) BOk) as (E1 & E2 & E3). destruct (respond _ _ _). apply Same; auto.
      * destruct (Resp s0 (rq_id r) (BErr InvalidParams)) as (E1 & E2 & E3). destruct (respond _ _ _). apply Same; auto.
      * destruct (Resp s0 (rq_id r) (BErr MethodNotFound)) as (E1 & E2 & E3). destruct (respond _ _ _). apply Same; auto.
  - destruct n as [|[i|]|[[]|]|[p|]|[p|]|[u|]|mt]; cbn [on_notification extract bind] in H; try discriminate.
    + injection H as <- _. apply Same; auto.
    + injection H as H. assert (s1 = fst (cancel s i)) as -> by (rewrite H; reflexivity). unfold cancel. destruct (alookup _ _ _); apply Same; auto.
    + injection H as <- _. apply Same; auto.
    + unfold did_open in H. destruct (vfs_path (op_url p)) as [path|]; cbn [bind] in H; [|injection H as <- _; apply Same; auto].
      destruct (vfs_set _ _ _) as [[v b]| |] eqn:E; cbn [bind] in H; try discriminate. injection H as <- _.
      split; [|left; reflexivity]. cbn [s_vfs with_vfs]. destruct (vfs_set_spec _ _ _ _ _ Hi E) as (i & _ & _ & _ & _ & X & _). exact X.
    + unfold did_change in H. destruct (vfs_path (cp_url p)) as [path|]; cbn [bind] in H; [|injection H as <- _; apply Same; auto].
      destruct (alookup vpath_eqb path (s_docs s)) as [ver|] eqn:El; cbn [bind] in H; [|injection H as <- _; apply Same; auto].
      cbn [s_vfs with_docs] in H.
      destruct (vfs_file_id _ _) as [o| |]; cbn [bind] in H; try discriminate. destruct (unwrap o) as [i| |]; cbn [bind] in H; try discriminate.
      destruct (vfs_file_contents _ _) as [bs| |]; cbn [bind] in H; try discriminate. destruct (unwrap (decode bs)) as [t| |]; cbn [bind] in H; try discriminate.
      destruct (apply_document_changes _ _) as [t'| |]; cbn [bind] in H; try discriminate.
      destruct (vfs_set _ _ _) as [[v b]| |] eqn:E; cbn [bind] in H; try discriminate. injection H as <- _.
      cbn [s_vfs with_vfs s_docs with_docs s_docs_changed].
      split; [destruct (vfs_set_spec _ _ _ _ _ Hi E) as (j & _ & _ & _ & _ & X & _); exact X|].
      right. split; [exact Hd|]. intros q. rewrite (ainsert_keys _ vpath_eqb_eq). split; [|auto]. intros [->|Hq]; [|exact Hq].
      apply alookup_In in El; [|apply vpath_eqb_eq]. apply in_map_iff. exists (path, ver). auto.
    + injection H as <- _. unfold did_close. destruct (vfs_path u); [|apply Same; auto].
      split; [exists []; rewrite app_nil_r; reflexivity|left; reflexivity].
    + injection H as <- _. apply Same; auto.
  - unfold complete_request in H. destruct (alookup _ _ _); cbn [unwrap bind] in H; [|discriminate]. injection H as <- _. apply Same; auto.
Qed.

(** ** Publications of one turn *)
Lemma publications_app comps a b : publications comps (a ++ b) = publications comps a ++ publications comps b.
Proof. apply flat_map_app. Qed.
Lemma publication_of s comps x : vfs_inv (s_vfs s) -> is_local (s_roots s) comps = true ->
  (known (s_vfs s) x (Real comps) /\
   publications comps (publication s x) = [(alookup vpath_eqb (Real comps) (s_docs s), diagnostics_for (s_diags s) x)]) \/
  (~ known (s_vfs s) x (Real comps) /\ publications comps (publication s x) = []).
Proof.
  intros Hi Hl. unfold publication. destruct (vfs_file_path (s_vfs s) x) as [p| |] eqn:E.
  - pose proof (path_known _ _ _ Hi E) as K. destruct p as [cs|vp].
    + destruct (texts_eqb cs comps) eqn:Et.
      * apply texts_eqb_eq in Et as ->. left. split; [exact K|]. unfold root_is_library. unfold is_local in Hl. rewrite Hl. cbn [negb].
        cbn [publications flat_map app]. rewrite (proj2 (texts_eqb_eq comps comps) eq_refl). reflexivity.
      * right. split.
        -- intros K'. pose proof (known_inj _ _ _ _ K K') as X. injection X as ->. rewrite (proj2 (texts_eqb_eq comps comps) eq_refl) in Et. discriminate.
        -- destruct (root_is_library _ _); [reflexivity|]. cbn [publications flat_map app]. rewrite Et. reflexivity.
    + right. split; [|reflexivity]. intros K'. pose proof (known_inj _ _ _ _ K K'). discriminate.
  - right. split; [|reflexivity]. intros K. rewrite (known_path _ _ _ K) in E. discriminate.
  - right. split; [|reflexivity]. intros K. rewrite (known_path _ _ _ K) in E. discriminate.
Qed.
Lemma publications_of s comps : vfs_inv (s_vfs s) -> is_local (s_roots s) comps = true -> forall l,
  Forall (fun r => exists x, In x l /\ known (s_vfs s) x (Real comps) /\ snd r = diagnostics_for (s_diags s) x)
    (publications comps (flat_map (publication s) l)) /\
  ((exists x, In x l /\ known (s_vfs s) x (Real comps)) -> publications comps (flat_map (publication s) l) <> []).
Proof.
  intros Hi Hl. induction l as [|x l [IH1 IH2]]; cbn [flat_map]; [split; [constructor|intros (x & [] & _)]|].
  rewrite publications_app. destruct (publication_of s comps x Hi Hl) as [[K E]|[K E]]; rewrite E; cbn [app].
  - split; [|discriminate]. constructor; [exists x; cbn; auto|]. eapply Forall_impl; [|exact IH1]. intros r (y & ? & ?). exists y. cbn. auto.
  - split; [eapply Forall_impl; [|exact IH1]; intros r (y & ? & ?); exists y; cbn; auto|].
    intros (y & [->|Hy] & K'); [contradiction|]. apply IH2. eauto.
Qed.
Lemma last_published_none comps a b : publications comps b = [] -> last_published comps (a ++ b) = last_published comps a.
Proof. intros H. unfold last_published. rewrite publications_app, H, app_nil_r. reflexivity. Qed.
Lemma last_published_some comps a b ds : publications comps b <> [] -> Forall (fun r => snd r = ds) (publications comps b) ->
  exists v, last_published comps (a ++ b) = Some (v, ds).
Proof.
  intros H F. unfold last_published. rewrite publications_app, map_app.
  destruct (exists_last H) as (l & [v ds'] & E). rewrite E in *. apply Forall_app in F as [_ F]. apply Forall_inv in F. cbn in F. subst ds'.
  exists v. rewrite map_app, app_assoc. cbn [map]. apply last_last.
Qed.

Section Fifo.
  Context (ho : hash_order).

  Lemma ord_nil A : ord ho A [] = [].
  Proof. apply Permutation_nil. apply Permutation_sym, ord_perm. Qed.

  Lemma publications_responses comps (l : list (request_id * body)) : publications comps (map (fun a => OResponse (fst a) (snd a)) l) = [].
  Proof. induction l; [reflexivity|]. cbn. exact IHl. Qed.

  (** *** mirrored *)
  Lemma mirrored_event s m s1 o1 s' out : inv s -> quiet s -> on_event s m = Ok (s1, o1) -> event_ok s m s1 o1 ->
    tidy s -> same_front s1 s' -> dc_native (s_diags s') = dc_native (s_diags s1) ->
    mirrored s out -> mirrored s' (out ++ o1).
  Proof.
    intros I Q He E Y F Hn Mi comps Hl.
    destruct (event_docs s m s1 o1 I He (y_docs _ Y)) as [[ext Hext] _].
    rewrite (sf_roots _ _ F), (e_roots _ _ _ _ E) in Hl. pose proof (Mi comps Hl) as M0.
    assert (Po : publications comps o1 = []) by (rewrite (e_out _ _ _ _ E); apply publications_responses).
    rewrite (sf_interner _ _ F), Hext, Hn, (e_diags _ _ _ _ E).
    destruct (index_of (Real comps) (v_interner (s_vfs s))) as [i|] eqn:Ei.
    - rewrite (index_of_app_l _ _ _ _ Ei). destruct (alookup _ _ _).
      + rewrite last_published_none by exact Po. exact M0.
      + rewrite publications_app, M0, Po. reflexivity.
    - assert (Z : publications comps (out ++ o1) = []) by (rewrite publications_app, M0, Po; reflexivity).
      destruct (index_of (Real comps) (v_interner (s_vfs s) ++ ext)) as [i|] eqn:Ei'; [|exact Z].
      destruct (alookup N.eqb (N.of_nat i) (dc_native (s_diags s))) as [ds|] eqn:El; [|exact Z]. exfalso.
      destruct (m_mentioned _ _ _ _ _ _ _ _ _ (proj1 I) (N.of_nat i)) as [q Hq].
      { unfold mentioned. rewrite !in_app_iff. right. left. apply alookup_In in El; [|apply Neqb_spec]. apply in_map_iff. exists (N.of_nat i, ds). auto. }
      assert (known s1.(s_vfs) (N.of_nat i) q) as K1 by (unfold known; rewrite Hext; apply index_of_app_l; exact Hq).
      assert (known s1.(s_vfs) (N.of_nat i) (Real comps)) as K2 by (unfold known; rewrite Hext, Nat2N.id; exact Ei').
      pose proof (known_inj _ _ _ _ K1 K2). subst q. unfold known in Hq. congruence.
  Qed.
  Lemma mirrored_tasks s ts bag s' out o : inv s -> tidy s -> Forall tmade ts ->
    turned ho (with_diags (with_tasks s (s_jobs s) bag) (absorb (s_diags s) ts)) true [] s' o ->
    mirrored s out -> mirrored s' (out ++ o).
  Proof.
    intros I Y Hts T Mi comps Hl. pose proof (t_front _ _ _ _ _ _ T) as F. pose proof (t_inv _ _ _ _ _ _ T) as I'.
    pose proof (sf_roots _ _ F) as Fr. cbn [s_roots with_diags with_tasks] in Fr.
    pose proof (sf_interner _ _ F) as Fi. cbn [s_vfs with_diags with_tasks] in Fi.
    pose proof (t_out _ _ _ _ _ _ T) as Ho. cbn [s_diags with_diags] in Ho.
    pose proof (t_native _ _ _ _ _ _ T) as Hn. cbn [s_diags with_diags] in Hn.
    pose proof (absorb_absorbed ts (s_diags s) (y_native _ Y) Hts) as A.
    destruct (publications_of s' comps (proj1 (m_vfs _ _ _ _ _ _ _ _ _ (proj1 I'))) Hl (ord ho _ (dc_changes (absorb (s_diags s) ts)))) as [P1 P2].
    rewrite <- Ho in P1, P2. pose proof Hl as Hl'. rewrite Fr in Hl'. pose proof (Mi comps Hl') as M0.
    rewrite Fi, Hn. destruct (index_of (Real comps) (v_interner (s_vfs s))) as [i|] eqn:Ei.
    - assert (K : known (s_vfs s') (N.of_nat i) (Real comps)) by (unfold known; rewrite Fi, Nat2N.id; exact Ei).
      destruct (in_dec N.eq_dec (N.of_nat i) (dc_changes (absorb (s_diags s) ts))) as [Hin|Hin].
      + destruct (ab_some _ _ A _ Hin) as [X|X]; [rewrite (y_changes _ Y) in X; destruct X|].
        destruct (alookup N.eqb (N.of_nat i) (dc_native (absorb (s_diags s) ts))) as [ds|] eqn:El; [|contradiction].
        apply last_published_some.
        * apply P2. exists (N.of_nat i). split; [apply ord_In; exact Hin|exact K].
        * eapply Forall_impl; [|exact P1]. intros r (x & _ & Kx & ->). assert (x = N.of_nat i) as -> by (eapply known_fun; eauto).
          unfold diagnostics_for, entry. rewrite Hn, El, (m_check _ _ _ _ _ _ _ _ _ (proj1 I')). apply app_nil_r.
      + assert (Po : publications comps o = []).
        { destruct (publications comps o) as [|r l]; [reflexivity|]. exfalso. apply Forall_inv in P1 as (x & Hx & Kx & _).
          assert (x = N.of_nat i) as -> by (eapply known_fun; eauto). apply Hin. apply (proj1 (ord_In ho _ _)) in Hx. exact Hx. }
        rewrite (ab_same _ _ A _ Hin). destruct (alookup _ _ _).
        * rewrite last_published_none by exact Po. exact M0.
        * rewrite publications_app, M0, Po. reflexivity.
    - assert (Po : publications comps o = []).
      { destruct (publications comps o) as [|r l]; [reflexivity|]. exfalso. apply Forall_inv in P1 as (x & Hx & Kx & _).
        unfold known in Kx. rewrite Fi, Ei in Kx. discriminate. }
      rewrite publications_app, M0, Po. reflexivity.
  Qed.

  (** *** latest *)
  Lemma job_files_endings e e' db ids : (forall id, In id ids -> alookup N.eqb id e <> None /\ alookup N.eqb id e' <> None) ->
    forall cut, job_files e db ids cut = job_files e' db ids cut.
  Proof.
    induction ids as [|id ids IH]; intros H cut; cbn [job_files]; [reflexivity|]. destruct cut as [|cut]; [reflexivity|].
    destruct (H id (or_introl eq_refl)) as [H1 H2]. rewrite (publish_endings e e' db id H1 H2).
    rewrite IH; [reflexivity|]. intros i Hi. apply H. right. exact Hi.
  Qed.

  Lemma latest_event s m s1 o1 cuts s' o2 : inv s -> on_event s m = Ok (s1, o1) -> event_ok s m s1 o1 -> tidy s ->
    turned ho s1 true cuts s' o2 -> latest s -> latest s' /\ tidy s' /\ o2 = [].
  Proof.
    intros I He E Y T L. pose proof (t_front _ _ _ _ _ _ T) as F.
    destruct (event_docs s m s1 o1 I He (y_docs _ Y)) as [[ext Hext] Hd].
    assert (Ty : tidy s').
    { split.
      - apply T.
      - apply T.
      - intros id ds. rewrite (t_native _ _ _ _ _ _ T), (e_diags _ _ _ _ E). apply Y.
      - rewrite (t_done _ _ _ _ _ _ T), (e_done _ _ _ _ E). apply Forall_app. split; [apply Y|].
        destruct (vfs_has_changes _); [apply jobs_cut_made|constructor]. }
    split; [|split; [exact Ty|]].
    2:{ rewrite (t_out _ _ _ _ _ _ T), (e_diags _ _ _ _ E), (y_changes _ Y), ord_nil. reflexivity. }
    pose proof (t_jobs _ _ _ _ _ _ T) as J. cbn [negb orb] in J.
    destruct (vfs_has_changes (s_vfs s1) || s_docs_changed s1) eqn:Go.
    - destruct J as (ids & Hj & Hf). exists ids. split.
      + split; intros x Hx.
        * destruct (Forall2_In_r _ _ _ x Hf) as (y & Hy & K); [apply ord_In; exact Hx|]. eauto.
        * destruct (Forall2_In_l _ _ _ x Hf Hx) as (p & Hp & K). apply (proj1 (ord_In ho _ _)) in Hp. eauto.
      + left. eauto.
    - apply orb_false_iff in Go as [G1 G2]. destruct Hd as [Hd|[_ Hd]]; [congruence|].
      destruct (t_db _ _ _ _ _ _ T G1) as [D1 D2]. destruct L as (ids & Hc & L). exists ids. split.
      + unfold covers, known. rewrite (sf_docs _ _ F), (sf_interner _ _ F), Hext. split.
        * intros p Hp. destruct (proj1 Hc p (proj1 (Hd p) Hp)) as (x & Hx & K). exists x. split; [exact Hx|apply index_of_app_l; exact K].
        * intros id Hid. destruct (proj2 Hc id Hid) as (p & Hp & K). exists p. split; [apply Hd; exact Hp|apply index_of_app_l; exact K].
      + rewrite J, D1, D2, (t_native _ _ _ _ _ _ T), (t_done _ _ _ _ _ _ T), G1, app_nil_r.
        rewrite (e_jobs _ _ _ _ E), (e_db _ _ _ _ E), (e_endings _ _ _ _ E), (e_done _ _ _ _ E), (e_diags _ _ _ _ E). exact L.
  Qed.

  Lemma latest_tasks s ts bag s' o : inv s -> tidy s -> s_done s = ts ++ bag -> ts <> [] ->
    turned ho (with_diags (with_tasks s (s_jobs s) bag) (absorb (s_diags s) ts)) true [] s' o ->
    latest s -> latest s' /\ tidy s'.
  Proof.
    intros I Y Hd Hne T L. pose proof (t_front _ _ _ _ _ _ T) as F.
    pose proof (y_done _ Y) as Hm. rewrite Hd in Hm. apply Forall_app in Hm as [Hts Hbag].
    assert (G1 : vfs_has_changes (s_vfs s) = false) by (unfold vfs_has_changes; rewrite (proj2 I); reflexivity).
    pose proof (t_done _ _ _ _ _ _ T) as Td. cbn [s_done with_diags with_tasks s_vfs] in Td. rewrite G1, app_nil_r in Td.
    pose proof (t_jobs _ _ _ _ _ _ T) as J. cbn [negb orb s_vfs with_diags with_tasks s_docs_changed s_jobs] in J. rewrite G1, (y_docs _ Y) in J. cbn [orb] in J.
    destruct (t_db _ _ _ _ _ _ T G1) as [D1 D2]. cbn [s_db s_endings with_diags with_tasks] in D1, D2.
    pose proof (t_native _ _ _ _ _ _ T) as Hn. cbn [s_diags with_diags] in Hn.
    split.
    - destruct L as (ids & Hc & L). exists ids. split.
      + unfold covers, known. rewrite (sf_docs _ _ F), (sf_interner _ _ F). exact Hc.
      + rewrite J, D1, D2, Hn, Td. destruct L as [L|[(L1 & ts0 & l & L2 & L3)|[(L1 & L2 & _)|L]]].
        * left. exact L.
        * destruct bag as [|b bag].
          -- right. right. left. split; [exact L1|]. split; [reflexivity|]. exists l. split; [exact L3|]. intros id ds Hin.
             rewrite app_nil_r in Hd. rewrite L2 in Hd. subst ts. rewrite absorb_app. cbn [absorb fold_left].
             apply Forall_app in Hts as [Ht0 Hl]. apply Forall_inv in Hl. cbn [tmade] in Hl.
             pose proof (absorb_absorbed ts0 (s_diags s) (y_native _ Y) Ht0) as A.
             destruct (set_all_absorbed l (absorb (s_diags s) ts0) (ab_made _ _ A) Hl) as (_ & B & _). apply B; [|exact Hin].
             intros i a b H1 H2. pose proof (job_files_In _ _ _ _ _ L3 i a H1). pose proof (job_files_In _ _ _ _ _ L3 i b H2). congruence.
          -- right. left. split; [exact L1|].
             assert (Hne2 : b :: bag <> []) by discriminate. destruct (exists_last Hne2) as (bag0 & b0 & Eb). rewrite Eb in *.
             rewrite L2, app_assoc in Hd. apply app_inj_tail in Hd as [_ <-]. exists bag0, l. auto.
        * exfalso. rewrite L2 in Hd. symmetry in Hd. apply app_eq_nil in Hd as [? _]. contradiction.
        * right. right. right. exact L.
    - split.
      + apply T.
      + apply T.
      + intros id ds. rewrite Hn. apply (ab_made _ _ (absorb_absorbed ts (s_diags s) (y_native _ Y) Hts)).
      + rewrite Td. exact Hbag.
  Qed.

  Lemma latest_worker s j rest : inv s -> tidy s -> s_jobs s = j :: rest -> latest s ->
    let s' := with_tasks s rest (s_done s ++ job_run (s_endings s) j (length (jb_files j))) in latest s' /\ tidy s'.
  Proof.
    intros I Y Hj L s'. split.
    - destruct L as (ids & Hc & L). exists ids. split; [exact Hc|]. unfold s'. cbn [s_jobs s_done s_db s_endings s_diags with_tasks].
      destruct L as [(js & L)|[(L1 & _)|[(L1 & _)|(L1 & _)]]]; try (rewrite Hj in L1; discriminate).
      rewrite Hj in L. destruct js as [|j0 js].
      + cbn [app] in L. injection L as -> ->. unfold job_run. cbn [jb_db jb_files].
        destruct (job_files (s_endings s) (s_db s) ids (length ids)) as [l| |] eqn:E.
        * right. left. split; [reflexivity|]. eauto.
        * right. right. right. split; [reflexivity|]. discriminate.
        * right. right. right. split; [reflexivity|]. discriminate.
      + cbn [app] in L. injection L as -> ->. left. eauto.
    - destruct Y as [Y1 Y2 Y3 Y4]. split; auto. unfold s'. cbn [s_done with_tasks]. apply Forall_app. split; [exact Y4|apply job_run_made].
  Qed.

  Lemma fifo_run ls : forall s out0 out s', inv s -> quiet s -> tidy s -> latest s -> mirrored s out0 ->
    valid_labels ls -> Forall in_order ls -> run ho s ls = (out, Alive s') ->
    tidy s' /\ latest s' /\ mirrored s' (out0 ++ out).
  Proof.
    induction ls as [|l ls IH]; intros s out0 out s' I Q Y L Mi V O H; cbn [run] in H.
    - injection H as <- <-. rewrite app_nil_r. auto.
    - unfold valid_labels, messages in V. cbn [flat_map] in V. apply Forall_app in V as [V1 V2].
      inversion O as [|? ? O1 O2]; subst.
      pose proof (step_spec ho s l I Q V1) as K. destruct (step ho s l) as [s1 o1| | |w|] eqn:Es; try discriminate.
      destruct (run ho s1 ls) as [o2 e2] eqn:Er. injection H as <- ->.
      assert (G : tidy s1 /\ latest s1 /\ mirrored s1 (out0 ++ o1)).
      { destruct l as [m cuts|picks|i|]; cbn [label_messages] in V1.
        - assert (Em : of_res (handle_message ho s m cuts) = Continue s1 o1).
          { cbn [step] in Es. destruct m as [|n|]; auto. destruct n; auto. discriminate. }
          apply Forall_inv in V1. destruct (handle_message_spec ho s m cuts I Q V1) as [(sa & sb & oa & ob & He & Ev & T & Hm & _)|[_ [w Hm]]];
            rewrite Hm in Em; [|discriminate]. injection Em as -> <-.
          destruct (latest_event s m sa oa cuts s1 ob I He Ev Y T L) as (A & B & ->). rewrite app_nil_r.
          split; [exact B|]. split; [exact A|]. eapply mirrored_event; eauto; apply T.
        - cbn [step] in Es. destruct (pick_tasks picks (s_done s)) as [ts bag] eqn:Ep. cbn [in_order] in O1.
          pose proof (pick_zeros picks O1 _ _ _ Ep) as Hd. destruct ts as [|t ts].
          + injection Es as <- <-. rewrite app_nil_r. auto.
          + destruct (received_spec ho s (t :: ts) bag I Q) as (s2 & o & Hr & T & _); [rewrite Hd; reflexivity|].
            rewrite Hr in Es. injection Es as -> ->.
            destruct (latest_tasks s (t :: ts) bag s1 o1 I Y Hd ltac:(discriminate) T L) as [A B]. split; [exact B|]. split; [exact A|].
            apply (mirrored_tasks s (t :: ts) bag s1 out0 o1 I Y); [|exact T|exact Mi]. pose proof (y_done _ Y) as Hm. rewrite Hd in Hm. apply Forall_app in Hm. tauto.
        - cbn [step in_order] in *. subst i. destruct (s_jobs s) as [|j rest] eqn:Ej; cbn [remove_nth] in Es; injection Es as <- <-; rewrite app_nil_r.
          + auto.
          + destruct (latest_worker s j rest I Y Ej L) as [A B]. split; [exact B|]. split; [exact A|]. exact Mi.
        - discriminate. }
      destruct G as (Y1 & L1 & M1). rewrite app_assoc. eapply (IH s1); eauto; apply K.
  Qed.

  Lemma start_fifo c did_save : let s := fst (start c did_save) in
    tidy s /\ latest s /\ mirrored s (snd (start c did_save)).
  Proof.
    cbn zeta. split; [|split].
    - destruct did_save; split; cbn; auto; intros id ds H; discriminate.
    - exists []. split; [split; [intros p Hp|intros id []]; destruct did_save; destruct Hp|].
      right. right. left. destruct did_save; (split; [reflexivity|]; split; [reflexivity|]; exists []; split; [reflexivity|]; intros id ds []).
    - intros comps _. destruct did_save; reflexivity.
  Qed.

  (** *** Settling *)
  Lemma run_docs ls : forall s out s', inv s -> quiet s -> s_docs_changed s = false -> valid_labels ls ->
    run ho s ls = (out, Alive s') -> s_docs_changed s' = false.
  Proof.
    induction ls as [|l ls IH]; intros s out s' I Q D V H; cbn [run] in H; [injection H as _ <-; exact D|].
    unfold valid_labels, messages in V. cbn [flat_map] in V. apply Forall_app in V as [V1 V2].
    pose proof (step_spec ho s l I Q V1) as K. destruct (step ho s l) as [s1 o1| | |w|] eqn:Es; try discriminate.
    destruct (run ho s1 ls) as [o2 e2] eqn:Er. injection H as <- ->. eapply (IH s1); eauto; [apply K|apply K|].
    destruct l as [m cuts|picks|i|]; cbn [label_messages] in V1.
    - assert (Em : of_res (handle_message ho s m cuts) = Continue s1 o1).
      { cbn [step] in Es. destruct m as [|n|]; auto. destruct n; auto. discriminate. }
      apply Forall_inv in V1. destruct (handle_message_spec ho s m cuts I Q V1) as [(sa & sb & oa & ob & He & Ev & T & Hm & _)|[_ [w Hm]]];
        rewrite Hm in Em; [|discriminate]. injection Em as -> <-. apply T.
    - cbn [step] in Es. destruct (pick_tasks picks (s_done s)) as [ts bag] eqn:Ep. destruct ts as [|t ts].
      + injection Es as <- <-. exact D.
      + destruct (received_spec ho s (t :: ts) bag I Q) as (s2 & o & Hr & T & _); [eapply pick_tasks_perm; eauto|].
        rewrite Hr in Es. injection Es as -> ->. apply T.
    - cbn [step] in Es. destruct (remove_nth i (s_jobs s)) as [[j rest]|]; injection Es as <- _; exact D.
    - discriminate.
  Qed.
  Lemma pick_all bag : pick_tasks (repeat 0%nat (length bag)) bag = (bag, []).
  Proof. induction bag as [|t bag IH]; [reflexivity|]. cbn [length repeat pick_tasks remove_nth]. rewrite IH. reflexivity. Qed.
  Lemma settle : forall n s, length (s_jobs s) = n -> inv s -> quiet s -> s_docs_changed s = false ->
    exists ls out s', Forall in_order ls /\ messages ls = [] /\ run ho s ls = (out, Alive s') /\ settled s'.
  Proof.
    induction n as [|n IH]; intros s Hn I Q D.
    - destruct (s_jobs s) as [|j js] eqn:Ej; [|discriminate]. destruct (s_done s) as [|t ts] eqn:Ed.
      + exists [], [], s. split; [constructor|]. split; [reflexivity|]. split; [reflexivity|]. split; auto.
      + destruct (received_spec ho s (t :: ts) [] I Q) as (s2 & o & Hr & T & _); [rewrite app_nil_r, Ed; apply Permutation_refl|].
        exists [LTasks (repeat 0%nat (length (s_done s)))], (o ++ []), s2.
        split; [constructor; [|constructor]; cbn [in_order]; apply Forall_forall; intros x Hx; eapply repeat_spec; eauto|].
        split; [reflexivity|]. cbn [run step]. rewrite pick_all, Ed. rewrite Ej in Hr |- *. rewrite Hr. cbn [of_res]. split; [reflexivity|].
        assert (G1 : vfs_has_changes (s_vfs s) = false) by (unfold vfs_has_changes; rewrite (proj2 I); reflexivity).
        pose proof (t_jobs _ _ _ _ _ _ T) as J. cbn [negb orb s_vfs with_diags with_tasks s_docs_changed s_jobs] in J.
        rewrite G1, D, Ej in J. cbn [orb] in J.
        pose proof (t_done _ _ _ _ _ _ T) as Td. cbn [s_done with_diags with_tasks s_vfs] in Td. rewrite G1 in Td. split; auto.
    - destruct (s_jobs s) as [|j js] eqn:Ej; [discriminate|]. injection Hn as Hn.
      pose proof (step_spec ho s (LWorker 0) I Q (Forall_nil _)) as K. cbn [step] in K. rewrite Ej in K. cbn [remove_nth] in K.
      set (s1 := with_tasks s js _) in K. destruct (IH s1 Hn (k_inv _ _ _ _ K) (k_quiet _ _ _ _ K) D) as (ls & out & s' & F & M & R & S).
      exists (LWorker 0 :: ls), out, s'. split; [constructor; [reflexivity|exact F]|]. split; [exact M|]. split; [|exact S].
      cbn [run step]. rewrite Ej. cbn [remove_nth]. fold s1. rewrite R. reflexivity.
  Qed.
End Fifo.
