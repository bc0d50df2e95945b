(** Properties C33, C34, C46 and C47: the way of diagnostics to the client.
    Specifications: ServerSpec.v and DiagSpec.v. *)
From Coq Require Import String Permutation.
From Verif Require Import Base BaseProofs Utf8 Utf8Proofs TextSpec LineIndex LineEndings LineEndingsProofs Vfs VfsSpec VfsProofs FileSet
  DocChanges GreenSpec Sink Database DatabaseProofs Diagnostics Server ServerSpec ServerInv ServerRun
  ServerTheorems DiagSpec DiagProofs DiagRun PropServer.
Local Open Scope N_scope.

(** ** C34 *)
Lemma equal_similar a b : are_diagnostics_equal a b = true <-> similar a b.
Proof.
  destruct a as [[[x y] [x2 y2]] sv cd so ms un], b as [[[z w] [z2 w2]] sv' cd' so' ms' un'].
  unfold are_diagnostics_equal, similar, range_eq, pos_eq. cbn. rewrite !andb_true_iff, !N.eqb_eq, text_eqb_eq.
  assert (S : opt_eqb severity_eqb sv sv' = true <-> sv = sv').
  { destruct sv as [[]|], sv' as [[]|]; cbn; intuition congruence. }
  assert (O : opt_eqb text_eqb so so' = true <-> so = so').
  { destruct so, so'; cbn; try (intuition congruence). rewrite text_eqb_eq. intuition congruence. }
  rewrite S, O. split.
  - intros (((-> & ->) & (-> & ->) & (-> & ->)) & ->). auto.
  - intros (-> & -> & E & ->). injection E as -> -> -> ->. auto.
Qed.
Lemma existsb_N id l : existsb (N.eqb id) l = true <-> In id l.
Proof. rewrite existsb_exists. split; [intros (x & H & E); apply N.eqb_eq in E as ->; exact H|intros H; exists id; split; [exact H|apply N.eqb_refl]]. Qed.
Lemma entry_insert id ds m i : entry (ainsert N.eqb id ds m) i = if i =? id then ds else entry m i.
Proof.
  unfold entry. destruct (N.eqb_spec i id) as [->|H]; [rewrite (alookup_insert _ Neqb_spec); reflexivity|].
  rewrite (alookup_insert_ne _ Neqb_spec) by congruence. reflexivity.
Qed.
Lemma fold_set_insert ks : forall s x, In x (fold_left (fun s k => set_insert k s) ks s) <-> In x ks \/ In x s.
Proof.
  induction ks as [|k ks IH]; intros s x; cbn [fold_left]; [cbn; tauto|]. rewrite IH, set_insert_In. cbn. intuition congruence.
Qed.
(** an update either reports a file or leaves it alone *)
Lemma update_reports c u id : ~ In id (dc_changes (apply_update c u)) ->
  ~ In id (dc_changes c) /\ diagnostics_for (apply_update c u) id = diagnostics_for c id.
Proof.
  unfold diagnostics_for. destruct u as [i ds|i d fx|]; cbn [apply_update].
  - unfold set_native_diagnostics. destruct (match alookup N.eqb i (dc_native c) with Some _ => _ | None => _ end); [auto|].
    cbn [dc_changes dc_native dc_check]. rewrite set_insert_In, entry_insert. intros H.
    destruct (N.eqb_spec id i) as [->|]; [exfalso; auto|]. split; [tauto|reflexivity].
  - unfold add_check_diagnostic. destruct (existsb _ _) eqn:E; cbn [dc_changes dc_native dc_check]; rewrite entry_insert.
    + intros H. split; [exact H|]. destruct (N.eqb_spec id i) as [->|]; reflexivity.
    + rewrite set_insert_In. intros H. destruct (N.eqb_spec id i) as [->|]; [exfalso; auto|]. split; [tauto|reflexivity].
  - unfold clear_check. cbn [dc_changes dc_native dc_check]. rewrite fold_set_insert. intros H. split; [tauto|]. f_equal.
    unfold entry. cbn [alookup]. destruct (alookup N.eqb id (dc_check c)) as [l|] eqn:E; [|reflexivity]. exfalso. apply H. left.
    apply alookup_In in E; [|apply Neqb_spec]. apply in_map_iff. exists (id, l). auto.
Qed.
Lemma batch_reports batch : forall c id, ~ In id (dc_changes (fold_left apply_update batch c)) ->
  ~ In id (dc_changes c) /\ diagnostics_for (fold_left apply_update batch c) id = diagnostics_for c id.
Proof.
  induction batch as [|u batch IH]; intros c id H; cbn [fold_left] in *; [auto|].
  destruct (IH _ _ H) as [H1 ->]. apply update_reports. exact H1.
Qed.
Lemma round_view c view b : (forall id, view id = diagnostics_for c id) -> forall id,
  snd (fst (round (c, view) b)) id = diagnostics_for (fst (fst (round (c, view) b))) id.
Proof.
  intros H id. unfold round, take_changes. cbn [fst snd]. set (c1 := fold_left apply_update b c).
  pose proof (batch_reports b c id) as B. fold c1 in B. destruct (dc_changes c1) as [|x l] eqn:E; cbn [fst snd].
  - cbn [existsb]. rewrite H. symmetry. apply B. intros [].
  - destruct (existsb (N.eqb id) (x :: l)) eqn:Ex; [reflexivity|].
    assert (~ In id (x :: l)) as Hn by (rewrite <- existsb_N; congruence).
    rewrite H. symmetry. apply (B Hn).
Qed.
(** The client always shows exactly what the collection holds. *)
Theorem C34_client_shows_the_collection : forall batches id,
  snd (rounds shows_nothing batches) id = diagnostics_for (fst (rounds shows_nothing batches)) id.
Proof.
  intros batches. assert (G : forall st, (forall id, snd st id = diagnostics_for (fst st) id) ->
    forall id, snd (rounds st batches) id = diagnostics_for (fst (rounds st batches)) id).
  { induction batches as [|b batches IH]; intros st H; cbn [rounds]; [exact H|]. apply IH. destruct st as [c view].
    intros id. apply round_view. exact H. }
  apply G. reflexivity.
Qed.

(** The collection holds the last diagnostics of the server, up to similarity,
    then the first of each group of similar check diagnostics since the last
    clear. *)
Lemma first_ones_app l : forall seen d fx,
  first_ones seen (l ++ [(d, fx)]) =
  first_ones seen l ++ (if existsb (fun e => are_diagnostics_equal e d) (seen ++ map fst (first_ones seen l)) then [] else [(d, fx)]).
Proof.
  induction l as [|[e g] l IH]; intros seen d fx; cbn [app first_ones].
  - cbn [map]. rewrite app_nil_r. destruct (existsb _ seen); reflexivity.
  - destruct (existsb _ seen) eqn:E; [apply IH|]. cbn [app map fst]. rewrite IH, <- app_assoc. reflexivity.
Qed.
Definition fixes_of (c : collection) (id : N) : list fix_ :=
  match alookup N.eqb id (dc_fixes c) with Some l => l | None => [] end.
Definition holds_history (c : collection) (us : list update) : Prop := forall id,
  Forall2 similar (entry (dc_native c) id) (last_native id us) /\
  entry (dc_check c) id = map fst (first_ones [] (checks_since_clear id us)) /\
  fixes_of c id =
    flat_map (fun x => map (fun a => {| fx_range := d_range (fst x); fx_action := a |}) (snd x))
      (first_ones [] (checks_since_clear id us)).
Lemma holds_history_step c us u : holds_history c us -> holds_history (apply_update c u) (us ++ [u]).
Proof.
  intros H id. destruct (H id) as (H1 & H2 & H3). unfold last_native, checks_since_clear. rewrite !fold_left_app. cbn [fold_left].
  fold (last_native id us). fold (checks_since_clear id us). destruct u as [i ds|i d fx|]; cbn [apply_update].
  - unfold set_native_diagnostics, fixes_of in *. destruct (alookup N.eqb i (dc_native c)) as [old|] eqn:E.
    + destruct ((length old =? length ds)%nat && zip_all are_diagnostics_equal ds old) eqn:Es.
      * destruct (N.eqb_spec i id) as [->|]; [|auto]. split; [|auto]. unfold entry. rewrite E.
        apply andb_true_iff in Es as [L Z]. apply Nat.eqb_eq in L. clear -L Z. revert ds L Z.
        induction old as [|o old IH]; intros [|d ds] L Z; try discriminate; constructor; cbn in Z; apply andb_true_iff in Z as [Z1 Z2].
        -- apply equal_similar in Z1. unfold similar in *. intuition congruence.
        -- apply IH; auto.
      * cbn [dc_native dc_check dc_fixes]. rewrite entry_insert. split; [|auto].
        rewrite (N.eqb_sym id i). destruct (i =? id); [|exact H1]. clear. induction ds; constructor; auto; repeat split.
    + cbn [dc_native dc_check dc_fixes]. rewrite entry_insert. split; [|auto].
      rewrite (N.eqb_sym id i). destruct (i =? id); [|exact H1]. clear. induction ds; constructor; auto; repeat split.
  - unfold add_check_diagnostic, fixes_of in *. destruct (N.eqb_spec i id) as [->|Hne].
    + rewrite first_ones_app. cbn [app]. rewrite <- H2. destruct (existsb _ (entry (dc_check c) id)) eqn:E; cbn [dc_native dc_check dc_fixes].
      * rewrite entry_insert, N.eqb_refl, app_nil_r. auto.
      * rewrite entry_insert, N.eqb_refl, map_app, flat_map_app, <- H2, <- H3. cbn [map flat_map fst snd app]. rewrite app_nil_r.
        split; [exact H1|]. split; [reflexivity|]. rewrite (alookup_insert _ Neqb_spec). reflexivity.
    + assert (Hi : (id =? i) = false) by (apply N.eqb_neq; congruence).
      destruct (existsb _ (entry (dc_check c) i)); cbn [dc_native dc_check dc_fixes]; rewrite entry_insert, Hi; auto.
      rewrite (alookup_insert_ne _ Neqb_spec) by congruence. auto.
  - cbn. auto.
Qed.
Lemma rounds_history batches : forall st us, holds_history (fst st) us -> holds_history (fst (rounds st batches)) (us ++ concat batches).
Proof.
  induction batches as [|b batches IH]; intros [c view] us H; cbn [rounds concat]; [rewrite app_nil_r; exact H|].
  rewrite app_assoc. apply IH.
  assert (G : holds_history (fold_left apply_update b c) (us ++ b)).
  { clear -H. cbn [fst] in H. revert c us H. induction b as [|u b IH]; intros c us H; cbn [fold_left]; [rewrite app_nil_r; exact H|].
    change (u :: b) with ([u] ++ b). rewrite app_assoc. apply IH, holds_history_step, H. }
  unfold round, take_changes. cbn [fst]. destruct (dc_changes (fold_left apply_update b c)); exact G.
Qed.
Theorem C34_client_shows_the_history : forall batches id,
  exists native, Forall2 similar native (last_native id (concat batches)) /\
    snd (rounds shows_nothing batches) id = native ++ map fst (first_ones [] (checks_since_clear id (concat batches))).
Proof.
  intros batches id. assert (H0 : holds_history (fst shows_nothing) []) by (intros i; cbn; auto).
  destruct (rounds_history batches shows_nothing [] H0 id) as (H1 & H2 & _). cbn [app] in *.
  eexists. split; [exact H1|]. rewrite C34_client_shows_the_collection. unfold diagnostics_for. f_equal. exact H2.
Qed.
(** The fixes on offer are those of the check diagnostics shown. *)
Theorem C34_fixes_belong_to_shown_diagnostics : forall batches id,
  fixes_of (fst (rounds shows_nothing batches)) id =
  flat_map (fun x => map (fun a => {| fx_range := d_range (fst x); fx_action := a |}) (snd x))
    (first_ones [] (checks_since_clear id (concat batches))).
Proof.
  intros batches id. assert (H0 : holds_history (fst shows_nothing) []) by (intros i; cbn; auto).
  apply (rounds_history batches shows_nothing [] H0 id).
Qed.
(** A round publishes a file only if one of its updates is about it and says
    something new. *)
Definition news (c : collection) (id : N) (u : update) : Prop :=
  match u with
  | UNative i ds => i = id /\ (alookup N.eqb id (dc_native c) = None \/ ~ Forall2 similar (entry (dc_native c) id) ds)
  | UCheck i d _ => i = id /\ ~ exists e, In e (entry (dc_check c) id) /\ similar e d
  | UClear => In id (map fst (dc_check c))
  end.
Lemma zip_all_similar ds : forall old, Forall2 similar old ds -> zip_all are_diagnostics_equal ds old = true /\ length old = length ds.
Proof.
  intros old H. induction H as [|o d old ds R H [IH1 IH2]]; [auto|]. cbn. rewrite IH1, IH2. split; [|reflexivity].
  apply andb_true_iff. split; [|reflexivity]. apply equal_similar. unfold similar in *. intuition congruence.
Qed.
Lemma update_news c u id : In id (dc_changes (apply_update c u)) -> In id (dc_changes c) \/ news c id u.
Proof.
  destruct u as [i ds|i d fx|]; cbn [apply_update news].
  - unfold set_native_diagnostics. destruct (alookup N.eqb i (dc_native c)) as [old|] eqn:E.
    + destruct ((length old =? length ds)%nat && zip_all are_diagnostics_equal ds old) eqn:Es; [auto|].
      cbn [dc_changes]. rewrite set_insert_In. intros [->|H]; [|auto]. right. split; [reflexivity|]. right. unfold entry. rewrite E.
      intros F. apply zip_all_similar in F as [F1 F2]. rewrite F1, F2, Nat.eqb_refl in Es. discriminate.
    + cbn [dc_changes]. rewrite set_insert_In. intros [->|H]; auto.
  - unfold add_check_diagnostic. destruct (existsb _ _) eqn:E; cbn [dc_changes]; [auto|]. rewrite set_insert_In. intros [->|H]; [|auto].
    right. split; [reflexivity|]. intros (e & He & Hs). apply equal_similar in Hs.
    assert (existsb (fun e => are_diagnostics_equal e d) (entry (dc_check c) i) = true) by (apply existsb_exists; eauto). congruence.
  - unfold clear_check. cbn [dc_changes]. rewrite fold_set_insert. tauto.
Qed.
Theorem C34_only_news_is_published : forall batches batch id,
  In id (snd (round (rounds shows_nothing batches) batch)) ->
  exists before u after, batch = before ++ u :: after /\
    news (fold_left apply_update before (fst (rounds shows_nothing batches))) id u.
Proof.
  intros batches batch id.
  assert (C : dc_changes (fst (rounds shows_nothing batches)) = []).
  { assert (G : forall st, dc_changes (fst st) = [] -> dc_changes (fst (rounds st batches)) = []); [|apply G; reflexivity].
    induction batches as [|b batches IH]; intros st H; cbn [rounds]; [exact H|]. apply IH. unfold round, take_changes.
    destruct (dc_changes (fold_left apply_update b (fst st))) eqn:E; cbn [fst]; auto. }
  generalize dependent (rounds shows_nothing batches). intros [c view] C. cbn [fst] in C. unfold round. cbn [fst].
  assert (G : forall c, In id (dc_changes (fold_left apply_update batch c)) ->
    In id (dc_changes c) \/ exists before u after, batch = before ++ u :: after /\ news (fold_left apply_update before c) id u).
  { clear. induction batch as [|u batch IH]; intros c H; cbn [fold_left] in H; [auto|].
    destruct (IH _ H) as [H1|(b & v & a & -> & N)].
    - destruct (update_news _ _ _ H1) as [|N]; [auto|]. right. exists [], u, batch. auto.
    - right. exists (u :: b), v, a. auto. }
  unfold take_changes. destruct (dc_changes (fold_left apply_update batch c)) as [|x l] eqn:E; cbn [snd]; [intros []|].
  intros H. destruct (G c) as [X|X]; [rewrite E; exact H|rewrite C in X; destruct X|exact X].
Qed.

(** a history with something of everything *)
Definition diag_at (line : N) (msg : text) : lsp_diag :=
  {| d_range := {| r_start := {| p_line := line; p_char := 0 |}; r_end := {| p_line := line; p_char := 1 |} |};
     d_severity := Some Error; d_code := `"c"; d_source := None; d_message := msg; d_unused := false |}.
Definition sample_batches : list (list update) :=
  [ [UNative 1 [diag_at 0 (`"a")]; UCheck 1 (diag_at 1 (`"b")) [7]; UCheck 2 (diag_at 0 (`"c")) []];
    [UNative 1 [diag_at 0 (`"a")]; UCheck 1 (diag_at 1 (`"b")) [8]];
    [UClear; UCheck 1 (diag_at 2 (`"d")) [9]] ].
Example sample_rounds :
  snd (rounds shows_nothing sample_batches) 1 = [diag_at 0 (`"a"); diag_at 2 (`"d")] /\
  snd (rounds shows_nothing sample_batches) 2 = [] /\
  snd (round (rounds shows_nothing (firstn 1 sample_batches)) (nth 1 sample_batches [])) = [] /\
  snd (round (rounds shows_nothing (firstn 2 sample_batches)) (nth 2 sample_batches [])) = [1; 2].
Proof. vm_compute. auto. Qed.

(** ** C33 *)
(** a document the parser can deal with *)
Definition analysable (t : text) : Prop :=
  tlen t < u32_bound /\ exists g errs, source_file_parse (crlf_to_lf t) = Ok (g, errs).
Section Delivery.
  Context (ho : hash_order) (c : root_config) (did_save : bool).

  (** If results are received in the order the jobs were submitted, a server
      whose work is all done has shown the client the diagnostics of the
      current text of every open document in a local root. *)
  Theorem C33_in_order_delivery_partial : forall ls out s,
    buildable c -> valid_labels ls -> Forall in_order ls -> serve ho c did_save ls = (out, Alive s) -> settled s ->
    (forall comps v t, holds s comps v t -> scalars t -> analysable t) ->
    forall comps v t, holds s comps v t -> scalars t -> is_local c comps = true ->
      exists version ds, last_published comps out = Some (version, ds) /\ diagnoses Utf8 (crlf_to_lf t) ds.
  Proof.
    intros ls out s Hc V O H [S1 S2] Han comps v t Hh Hs Hl.
    destruct (serve_run ho c did_save ls out _ H) as (out' & Hr & ->). destruct (inv_start c did_save Hc) as [I0 Q0].
    destruct (start_fifo c did_save) as (Y0 & L0 & M0).
    destruct (fifo_run ho ls _ _ _ _ I0 Q0 Y0 L0 M0 V O Hr) as (Y & L & M).
    destruct (session_alive ho c did_save _ _ _ Hc V H) as [I Q].
    assert (Hroots : s_roots s = c).
    { destruct (session ho c did_save ls _ _ Hc V H) as (o & _ & hd & rest & s' & _ & _ & _ & _ & _ & _ & Hroots & _ & _ & _ & ->).
      rewrite start_roots in Hroots. exact Hroots. }
    (* what the database knows about an open document *)
    assert (Doc : forall p id, In p (map fst (s_docs s)) -> known (s_vfs s) id p ->
      exists comps v t, p = Real comps /\ scalars t /\ holds s comps v t /\ file_text (s_db s) id = Ok (crlf_to_lf t) /\ alookup N.eqb id (s_endings s) <> None).
    { intros p id Hp K. destruct I as [Mi Hn]. pose proof (m_vfs _ _ _ _ _ _ _ _ _ Mi) as Hv.
      destruct (proj2 Hv p (known_In _ _ _ K)) as (cs & t1 & -> & Hs1 & Hc1).
      destruct (m_text _ _ _ _ _ _ _ _ _ Mi _ _ K) as [[T1 T2]|(f & Hf & _)]; [|rewrite Hn in Hf; destruct Hf].
      destruct (alookup vpath_eqb (Real cs) (s_docs s)) as [v1|] eqn:Ev.
      2:{ exfalso. apply (alookup_None _ vpath_eqb_eq) in Ev. contradiction. }
      exists cs, v1, t1. split; [reflexivity|]. split; [exact Hs1|]. split.
      - split; [exact Ev|]. exists id. split; [eapply known_file_id; eauto|eapply known_contents; eauto].
      - unfold file_text. rewrite T1. cbn [unwrap]. rewrite (known_text _ _ _ t1 K Hc1 Hs1). auto. }
    assert (Pub : forall p id, In p (map fst (s_docs s)) -> known (s_vfs s) id p ->
      exists comps v t ds, p = Real comps /\ scalars t /\ holds s comps v t /\ publish_diagnostics (s_endings s) (s_db s) id = Ok ds /\ diagnoses Utf8 (crlf_to_lf t) ds).
    { intros p id Hp K. destruct (Doc p id Hp K) as (cs & v1 & t1 & Hp1 & Hs1 & Hh1 & Ht1 & He1).
      destruct (Han cs v1 t1 Hh1 Hs1) as [Hsz (g & errs & Hparse)].
      pose proof (publish_diagnostics_spec _ _ _ _ He1 Ht1) as P. rewrite Hparse in P.
      destruct P as (ds & P & F); [pose proof (crlf_to_lf_tlen t1); lia|]. exists cs, v1, t1, ds.
      repeat (split; [assumption|]). exists g, errs. auto. }
    assert (Hin : In (Real comps) (map fst (s_docs s))).
    { destruct Hh as [Hd _]. apply alookup_In in Hd; [|apply vpath_eqb_eq]. apply in_map_iff. eexists. split; [|exact Hd]. reflexivity. }
    destruct L as (ids & [Hcov1 Hcov2] & L).
    assert (Jok : exists l, job_files (s_endings s) (s_db s) ids (length ids) = Ok l).
    { clear -Pub Hcov2. induction ids as [|id ids IH]; cbn [job_files length]; [eauto|].
      destruct (Hcov2 id (or_introl eq_refl)) as (p & Hp & K). destruct (Pub p id Hp K) as (_ & _ & _ & ds & _ & _ & _ & -> & _).
      cbn [bind]. destruct IH as [l ->]; [intros i Hi; apply Hcov2; right; exact Hi|]. cbn [bind]. eauto. }
    destruct L as [(js & L)|[(_ & ts & l & L & _)|[(_ & _ & l & Hl1 & Hl2)|(_ & L)]]].
    - rewrite S1 in L. destruct js; discriminate.
    - rewrite S2 in L. destruct ts; discriminate.
    - destruct (Hcov1 _ Hin) as (id & Hid & K). destruct (job_files_all _ _ _ _ Hl1 id Hid) as [ds Hds].
      pose proof (Hl2 _ _ Hds) as Hnat. pose proof (job_files_In _ _ _ _ _ Hl1 _ _ Hds) as Hpd.
      destruct (Pub _ _ Hin K) as (cs & v1 & t1 & ds1 & E1 & Hs1 & Hh1 & Hpd1 & Hdg). injection E1 as <-.
      assert (ds1 = ds) as -> by congruence.
      assert (t1 = t) as ->.
      { pose proof (holds_contents _ _ _ _ I Hh) as C1. pose proof (holds_contents _ _ _ _ I Hh1) as C2.
        rewrite C1 in C2. injection C2 as _ C2. symmetry. apply (encode_inj t t1); auto. }
      pose proof (M comps) as Mc. rewrite Hroots in Mc. specialize (Mc Hl). unfold known in K. rewrite K, N2Nat.id, Hnat in Mc.
      destruct Mc as [ver Mc]. exists ver, ds. auto.
    - destruct Jok as [l Hl']. exfalso. eapply L; eauto.
  Qed.
  (** Left alone, the server can always get there, in order. *)
  Theorem C33_can_settle : forall ls out s,
    buildable c -> valid_labels ls -> serve ho c did_save ls = (out, Alive s) ->
    exists more out' s', Forall in_order more /\ messages more = [] /\
      serve ho c did_save (ls ++ more) = (out ++ out', Alive s') /\ settled s' /\
      (forall comps v t, scalars t -> (holds s' comps v t <-> holds s comps v t)).
  Proof.
    intros ls out s Hc V H. destruct (serve_run ho c did_save ls out _ H) as (out1 & Hr & ->).
    destruct (inv_start c did_save Hc) as [I0 Q0]. destruct (session_alive ho c did_save _ _ _ Hc V H) as [I Q].
    assert (D : s_docs_changed s = false).
    { eapply (run_docs ho ls (fst (start c did_save))); eauto. destruct did_save; reflexivity. }
    destruct (settle ho _ s eq_refl I Q D) as (more & out2 & s' & F & Mm & R & S).
    exists more, out2, s'. split; [exact F|]. split; [exact Mm|]. split; [|split; [exact S|]].
    - unfold serve. destruct (start c did_save) as [s0 o0] eqn:E0. cbn [fst snd] in *. rewrite (run_app ho _ _ _ _ _ Hr), R.
      rewrite app_assoc. reflexivity.
    - assert (Vm : valid_labels more) by (unfold valid_labels; rewrite Mm; constructor).
      assert (Ds : forall comps, doc s' comps = doc s comps).
      { clear -R Mm I Q Vm. revert s out2 R Mm I Q Vm. induction more as [|l more IH]; intros s out2 R Mm I Q Vm comps; cbn [run] in R.
        - injection R as _ <-. reflexivity.
        - unfold messages in Mm. cbn [flat_map] in Mm. apply app_eq_nil in Mm as [Ml Mm].
          pose proof (step_spec ho s l I Q) as K. rewrite Ml in K. specialize (K (Forall_nil _)).
          destruct (step ho s l) as [s1 o1| | |w|] eqn:Es; try discriminate. destruct (run ho s1 more) as [o2 e2] eqn:Er. injection R as <- ->.
          rewrite (IH s1 o2 Er Mm (k_inv _ _ _ _ K) (k_quiet _ _ _ _ K)).
          + pose proof (k_doc _ _ _ _ K comps) as D. destruct l; [discriminate| | |]; cbn in D; congruence.
          + unfold valid_labels. unfold messages. rewrite Mm. constructor. }
      assert (I' : inv s').
      { pose proof (run_spec ho more s out2 _ I Q Vm R) as (hd & rest & s2 & _ & _ & I2 & _ & _ & _ & _ & _ & _ & _ & ->). exact I2. }
      intros comps v t Ht. split; intros Hh; apply contents_holds; auto.
      + rewrite <- Ds. apply holds_contents; auto.
      + rewrite Ds. apply holds_contents; auto.
  Qed.
End Delivery.

(** With the source roots the server is shipped with, nothing is ever
    published. *)
Theorem C33_nothing_published_refuted : forall ho did_save ls out e u v ds,
  valid_labels ls -> serve ho root_config_default did_save ls = (out, e) -> ~ In (OPublish u v ds) out.
Proof.
  intros ho did_save ls out e u v ds V H Hin. assert (Hc : buildable root_config_default) by (exists []; split; reflexivity).
  destruct (session ho _ did_save ls out e Hc V H) as (out' & -> & hd & rest & s' & _ & _ & _ & _ & _ & _ & _ & P & _).
  apply in_app_iff in Hin as [Hin|Hin].
  - destruct did_save; cbn in Hin; [|destruct Hin]. destruct Hin as [X|[]]. discriminate.
  - destruct (P _ _ _ Hin) as (comps & _ & X). rewrite start_roots in X. discriminate.
Qed.
(** With other roots, results that arrive out of order leave a client with the
    diagnostics of an old text. *)
Definition broken : text := `"script { fun f() { 1 + ; } }".
Definition fixed : text := `"script { fun f() { 1 + 2; } }".
Definition full_change (t : text) : change := {| ch_range := None; ch_text := t |}.
Definition overtaken : list label :=
  [opens file_a 1 broken []; LWorker 0; changes file_a 2 [full_change fixed] []; LWorker 0; LTasks [1; 0]%nat].
Theorem C33_stale_diagnostics_refuted : exists ho c out s,
  serve ho c false overtaken = (out, Alive s) /\ settled s /\ holds s file_a 2 fixed /\ is_local c file_a = true /\
  exists version ds, last_published file_a out = Some (version, ds) /\ ~ diagnoses Utf8 (crlf_to_lf fixed) ds.
Proof.
  exists plain_order, all_local. do 2 eexists. split; [vm_compute; reflexivity|]. split; [split; reflexivity|].
  split; [split; [reflexivity|exists 0; split; reflexivity]|]. split; [reflexivity|].
  do 2 eexists. split; [reflexivity|]. intros (g & errs & Hp & F).
  assert (errs = []) as -> by (vm_compute in Hp; injection Hp as _ <-; reflexivity). inversion F.
Qed.
(** the same messages, in order *)
Definition in_turn : list label :=
  [opens file_a 1 broken []; LWorker 0; changes file_a 2 [full_change fixed] []; LWorker 0; LTasks [0; 0]%nat].
Example in_turn_settles : exists out s, serve plain_order all_local false in_turn = (out, Alive s) /\ settled s /\
  Forall in_order in_turn /\ valid_labels in_turn /\ analysable broken /\ analysable fixed /\ holds s file_a 2 fixed /\
  is_local all_local file_a = true /\ last_published file_a out = Some (Some 2%Z, []).
Proof.
  do 2 eexists. split; [vm_compute; reflexivity|]. split; [split; reflexivity|].
  split; [repeat constructor|]. split; [repeat constructor|].
  split; [split; [reflexivity|do 2 eexists; vm_compute; reflexivity]|].
  split; [split; [reflexivity|do 2 eexists; vm_compute; reflexivity]|].
  split; [split; [reflexivity|exists 0; split; reflexivity]|]. split; reflexivity.
Qed.

(** ** C46.  The version sent with diagnostics is that of the text they are
    about: false, even when everything is in order. *)
Definition late : list label :=
  [opens file_a 1 broken []; LWorker 0; changes file_a 2 [full_change fixed] []; LTasks [0]%nat].
Theorem C46_version_of_diagnostics_refuted : exists ho c out s ds,
  serve ho c false late = (out, Alive s) /\ Forall in_order late /\ holds s file_a 2 fixed /\
  last_published file_a out = Some (Some 2%Z, ds) /\ ~ diagnoses Utf8 (crlf_to_lf fixed) ds.
Proof.
  exists plain_order, all_local. do 3 eexists. split; [vm_compute; reflexivity|]. split; [repeat constructor|].
  split; [split; [reflexivity|exists 0; split; reflexivity]|]. split; [reflexivity|]. intros (g & errs & Hp & F).
  assert (errs = []) as -> by (vm_compute in Hp; injection Hp as _ <-; reflexivity). inversion F.
Qed.
(** It is that of the document when they are sent, or absent if it is closed. *)
Theorem C46_version_is_the_current_one_partial : forall ho c did_save ls out s l s' out' comps v ds,
  buildable c -> valid_labels (ls ++ [l]) -> serve ho c did_save ls = (out, Alive s) -> step ho s l = Continue s' out' ->
  In (OPublish (UFile comps) v ds) out' ->
  match v with
  | Some v => exists t, holds s' comps v t
  | None => not_open s' comps
  end.
Proof.
  intros ho c did_save ls out s l s' out' comps v ds Hc V H Hst Hin.
  unfold valid_labels, messages in V. rewrite flat_map_app in V. apply Forall_app in V as [V1 V2].
  cbn [flat_map] in V2. rewrite app_nil_r in V2. destruct (session_alive ho c did_save _ _ _ Hc V1 H) as [I Q].
  pose proof (step_spec ho s l I Q V2) as K. rewrite Hst in K. pose proof (k_inv _ _ _ _ K) as I'.
  assert (P : exists ids, In (OPublish (UFile comps) v ds) (flat_map (publication s') ids)).
  { destruct l as [m cuts|picks|i|]; cbn [label_messages] in V2.
    - assert (Em : of_res (handle_message ho s m cuts) = Continue s' out').
      { cbn [step] in Hst. destruct m as [|n|]; auto. destruct n; auto. discriminate. }
      apply Forall_inv in V2. destruct (handle_message_spec ho s m cuts I Q V2) as [(sa & sb & oa & ob & He & Ev & T & Hm & _)|[_ [w Hm]]];
        rewrite Hm in Em; [|discriminate]. injection Em as -> <-. apply in_app_iff in Hin as [Hin|Hin].
      + rewrite (e_out _ _ _ _ Ev) in Hin. apply in_map_iff in Hin as (x & X & _). discriminate.
      + rewrite (t_out _ _ _ _ _ _ T) in Hin. eauto.
    - cbn [step] in Hst. destruct (pick_tasks picks (s_done s)) as [ts bag] eqn:Ep. destruct ts as [|t ts].
      + injection Hst as <- <-. destruct Hin.
      + destruct (received_spec ho s (t :: ts) bag I Q) as (s2 & o & Hr & T & _); [eapply pick_tasks_perm; eauto|].
        rewrite Hr in Hst. injection Hst as -> ->. rewrite (t_out _ _ _ _ _ _ T) in Hin. eauto.
    - cbn [step] in Hst. destruct (remove_nth i (s_jobs s)) as [[j rest]|]; injection Hst as <- <-; destruct Hin.
    - discriminate. }
  destruct P as (ids & P). apply in_flat_map in P as (id & _ & P). unfold publication in P.
  destruct (vfs_file_path (s_vfs s') id) as [[cs|]| |]; try destruct P. destruct (root_is_library _ _); [destruct P|].
  destruct P as [P|[]]. injection P as -> <- _. unfold not_open.
  destruct (alookup vpath_eqb (Real comps) (s_docs s')) as [ver|] eqn:E; [|reflexivity].
  destruct (open_contents s' (Real comps) ver I' E) as (cs & t & i & _ & _ & _ & Hid & Hct). exists t. split; eauto.
Qed.

(** ** C47.  Closing a document takes its diagnostics away: false. *)
Definition closed_in_turn : list label :=
  [opens file_a 1 broken []; LWorker 0; LTasks [0]%nat; LMsg (MNotification (NDidClose (Some (UFile file_a)))) [];
   LWorker 0; LTasks [0]%nat].
Theorem C47_closed_documents_keep_diagnostics_refuted : exists ho c out s version d ds,
  serve ho c false closed_in_turn = (out, Alive s) /\ Forall in_order closed_in_turn /\ settled s /\ not_open s file_a /\
  last_published file_a out = Some (version, d :: ds).
Proof.
  exists plain_order, all_local. do 5 eexists. split; [vm_compute; reflexivity|]. split; [repeat constructor|].
  split; [split; reflexivity|]. split; reflexivity.
Qed.

Print Assumptions C33_in_order_delivery_partial.
Print Assumptions C33_can_settle.
Print Assumptions C33_nothing_published_refuted.
Print Assumptions C33_stale_diagnostics_refuted.
Print Assumptions C34_client_shows_the_collection.
Print Assumptions C34_client_shows_the_history.
Print Assumptions C34_fixes_belong_to_shown_diagnostics.
Print Assumptions C34_only_news_is_published.
Print Assumptions C46_version_of_diagnostics_refuted.
Print Assumptions C46_version_is_the_current_one_partial.
Print Assumptions C47_closed_documents_keep_diagnostics_refuted.
