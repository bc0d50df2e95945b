(** Runs of the main loop: what each step does to the parts a client sees. *)
From Coq Require Import String Permutation.
From Verif Require Import Base BaseProofs Utf8 Utf8Proofs LineIndex LineEndings Vfs VfsSpec VfsProofs FileSet
  DocChanges DocChangesSpec DocChangesProofs Sink Database DatabaseProofs Diagnostics Server ServerSpec ServerInv.
Local Open Scope N_scope.

(** ** No fuel in edits *)
Ltac res_case H :=
  match type of H with
  | context [bind ?m _] => destruct m eqn:?; cbn [bind] in H; try discriminate
  | context [if ?b then _ else _] => destruct b; try discriminate
  end.
Lemma u32_sub_fuel a b : u32_sub a b <> Fuel. Proof. unfold u32_sub. destruct (_ <=? _); discriminate. Qed.
Lemma u32_add_fuel a b : u32_add a b <> Fuel. Proof. unfold u32_add. destruct (_ <? _); discriminate. Qed.
Lemma index_fuel {A} (o : option A) : index o <> Fuel. Proof. destruct o; discriminate. Qed.
Lemma utf16_loop_fuel cs : forall col, utf16_to_utf8_loop cs col <> Fuel.
Proof.
  induction cs as [|c cs IH]; intros col; cbn [utf16_to_utf8_loop]; [discriminate|].
  destruct (_ <? _); [|discriminate]. intros H.
  destruct (u32_sub _ _) eqn:E1; cbn [bind] in H; [|discriminate|eapply u32_sub_fuel; eauto].
  destruct (u32_add _ _) eqn:E2; cbn [bind] in H; [|discriminate|eapply u32_add_fuel; eauto].
  eapply IH; eauto.
Qed.
Lemma fp_offset_fuel li p : fp_offset Utf16 li p <> Fuel.
Proof.
  unfold fp_offset, li_to_utf8, utf16_to_utf8_col. intros H.
  destruct (alookup _ _ _) as [cs|]; [destruct (utf16_to_utf8_loop cs _) eqn:E|]; cbn [bind] in H; try discriminate.
  1, 3: unfold li_offset in H; destruct (index _) eqn:Ei; cbn [bind] in H; [|discriminate|eapply index_fuel; eauto];
    eapply u32_add_fuel; eauto.
  eapply utf16_loop_fuel; eauto.
Qed.
Lemma changes_loop_fuel chs : forall st, changes_loop st chs <> Fuel.
Proof.
  induction chs as [|ch chs IH]; intros [[t li] valid]; cbn [changes_loop]; [discriminate|]. intros H.
  destruct (change_step (t, li, valid) ch) eqn:E; cbn [bind] in H; [eapply IH; eauto|discriminate|].
  clear H. unfold change_step in E. destruct (ch_range ch); [|discriminate].
  destruct (if negb _ then _ else _) as [li'| |] eqn:E1; cbn [bind] in E; [|discriminate|].
  - unfold fp_text_range in E. destruct (fp_offset Utf16 li' (r_start l)) eqn:E2; cbn [bind] in E; [|discriminate|eapply fp_offset_fuel; eauto].
    destruct (fp_offset Utf16 li' (r_end l)) eqn:E3; cbn [bind] in E; [|discriminate|eapply fp_offset_fuel; eauto].
    destruct (_ <=? _); cbn [bind] in E; [|discriminate].
    unfold replace_range in E. destruct (split_at _ _) as [[]|]; [|discriminate]. destruct (split_at _ _) as [[]|]; [|discriminate].
    destruct (_ <=? _); discriminate.
  - destruct (negb _); [|discriminate]. unfold li_new in E1. destruct (_ <? _); discriminate.
Qed.
Lemma apply_changes_fuel t chs : apply_document_changes t chs <> Fuel.
Proof.
  unfold apply_document_changes, li_new. destruct (_ <? _); cbn [bind]; [apply changes_loop_fuel|discriminate].
Qed.

(** ** One event *)
(** what the client can send to kill the main loop *)
Inductive fatal (s : state) : message -> Prop :=
| fatal_cancel : fatal s (MNotification (NCancel None))
| fatal_progress : fatal s (MNotification (NWorkDoneProgressCancel None))
| fatal_open : fatal s (MNotification (NDidOpen None))
| fatal_change : fatal s (MNotification (NDidChange None))
| fatal_close : fatal s (MNotification (NDidClose None))
| fatal_response id : alookup id_eqb id (s_outgoing s) = None -> fatal s (MResponse id)
| fatal_edit p path ver t :
    vfs_path (cp_url p) = Some path -> alookup vpath_eqb path (s_docs s) = Some ver ->
    contents (s_vfs s) path = Some (encode t) -> scalars t ->
    (forall t', apply_document_changes t (cp_changes p) <> Ok t') ->
    fatal s (MNotification (NDidChange (Some p)))
| fatal_files m : too_many_files s -> fatal s m.

Definition doc (s : state) (comps : list text) : option (Z * option bytes) :=
  match alookup vpath_eqb (Real comps) (s_docs s) with
  | Some v => Some (v, contents (s_vfs s) (Real comps))
  | None => None
  end.
(** what a message does to the document at [comps] *)
Inductive doc_step (comps : list text) : message -> option (Z * option bytes) -> option (Z * option bytes) -> Prop :=
| ds_other m d : ~ about comps m -> doc_step comps m d d
| ds_open v t d : doc_step comps (MNotification (NDidOpen (Some {| op_url := UFile comps; op_version := v; op_text := t |}))) d (Some (v, Some (encode t)))
| ds_change v t v' chs t' : scalars t -> apply_document_changes t chs = Ok t' ->
    doc_step comps (MNotification (NDidChange (Some {| cp_url := UFile comps; cp_version := v'; cp_changes := chs |})))
      (Some (v, Some (encode t))) (Some (v', Some (encode t')))
| ds_ignored p : cp_url p = UFile comps -> doc_step comps (MNotification (NDidChange (Some p))) None None
| ds_close d : doc_step comps (MNotification (NDidClose (Some (UFile comps)))) d None.

Definition quiet (s : state) : Prop := s_incoming s = [].
Definition down_after (down : bool) (m : message) : bool :=
  match m with MRequest r => down || is_shutdown r | _ => down end.
Definition answers_to (down : bool) (m : message) : list (request_id * body) := answers down [m].

Definition on_event (s : state) (m : message) : res (state * list output) :=
  match m with
  | MRequest r => Ok (on_request s r)
  | MNotification n => on_notification s n
  | MResponse id => let! s := complete_request s id in Ok (s, [])
  end.
(** the files that exist only grow by the file of an opened document *)
Definition grows (s s' : state) : Prop :=
  (length (v_interner (s_vfs s')) <= S (length (v_interner (s_vfs s))))%nat.

Record event_ok (s : state) (m : message) (s1 : state) (out : list output) : Prop := {
  e_mid : mid s1;
  e_quiet : quiet s1;
  e_shutdown : s_shutdown s1 = down_after (s_shutdown s) m;
  e_out : out = map (fun a => OResponse (fst a) (snd a)) (answers_to (s_shutdown s) m);
  e_doc : forall comps, doc_step comps m (doc s comps) (doc s1 comps);
  e_outgoing : s_outgoing s1 = match m with MResponse id => aremove id_eqb id (s_outgoing s) | _ => s_outgoing s end;
  e_roots : s_roots s1 = s_roots s;
  e_grows : grows s s1;
  e_diags : s_diags s1 = s_diags s;
  e_jobs : s_jobs s1 = s_jobs s;
  e_done : s_done s1 = s_done s;
  e_db : s_db s1 = s_db s;
  e_endings : s_endings s1 = s_endings s
}.

Lemma real_inj a b : Real a = Real b -> a = b. Proof. congruence. Qed.
Lemma vpath_dec (a b : vpath) : a = b \/ a <> b.
Proof. destruct (vpath_eqb a b) eqn:E; [left; apply vpath_eqb_eq; auto|right; apply vpath_eqb_neq; auto]. Qed.

(** a state that differs from [s] only in request bookkeeping *)
Lemma event_plain s m s1 out :
  mid s1 -> s_docs s1 = s_docs s -> s_vfs s1 = s_vfs s -> s_roots s1 = s_roots s -> s_diags s1 = s_diags s ->
  s_jobs s1 = s_jobs s -> s_done s1 = s_done s -> s_db s1 = s_db s -> s_endings s1 = s_endings s ->
  (forall comps, ~ about comps m) ->
  quiet s1 -> s_shutdown s1 = down_after (s_shutdown s) m ->
  out = map (fun a => OResponse (fst a) (snd a)) (answers_to (s_shutdown s) m) ->
  s_outgoing s1 = match m with MResponse id => aremove id_eqb id (s_outgoing s) | _ => s_outgoing s end ->
  event_ok s m s1 out.
Proof.
  intros. split; auto.
  - intros comps. unfold doc. rewrite H0, H1. apply ds_other; auto.
  - unfold grows. rewrite H1. lia.
Qed.

Lemma respond_single s id m b : s_incoming s = [(id, m)] -> respond s id b = (with_incoming s [], [OResponse id b]).
Proof.
  intros H. unfold respond. rewrite H. cbn [alookup aremove]. rewrite (proj2 (id_eqb_spec id id) eq_refl). reflexivity.
Qed.
Lemma on_request_spec s r : inv s -> quiet s ->
  event_ok s (MRequest r) (fst (on_request s r)) (snd (on_request s r)).
Proof.
  intros [M Hnc] Hq. unfold quiet in Hq.
  unfold on_request, register_request. rewrite Hq. cbn [ainsert].
  set (s0 := with_incoming s [(rq_id r, rq_method r)]). change (s_shutdown s0) with (s_shutdown s).
  unfold dispatch_finish, on_sync_mut, dispatch_parse.
  destruct (s_shutdown s) eqn:Esd.
  { rewrite (respond_single s0 (rq_id r) (rq_method r)) by reflexivity.
    apply event_plain; cbn [fst snd down_after]; auto; try reflexivity.
    - rewrite Esd. exact Esd.
    - unfold answers_to, answers, answer. rewrite Esd. reflexivity. }
  destruct (text_eqb (rq_method r) (`"shutdown")) eqn:Em.
  - destruct (rq_params r) as [|raw] eqn:Ep.
    + rewrite (respond_single (with_shutdown s0 true) (rq_id r) (rq_method r)) by reflexivity.
      apply event_plain; cbn [fst snd down_after]; auto; try reflexivity.
      * unfold is_shutdown. rewrite Em, Ep, Esd. reflexivity.
      * unfold answers_to, answers, answer. rewrite Esd, Em, Ep. reflexivity.
    + rewrite (respond_single s0 (rq_id r) (rq_method r)) by reflexivity.
      apply event_plain; cbn [fst snd down_after]; auto; try reflexivity.
      * unfold is_shutdown. rewrite Em, Ep, Esd. exact Esd.
      * unfold answers_to, answers, answer. rewrite Esd, Em, Ep. reflexivity.
  - rewrite (respond_single s0 (rq_id r) (rq_method r)) by reflexivity.
    apply event_plain; cbn [fst snd down_after]; auto; try reflexivity.
    + unfold is_shutdown. rewrite Em, Esd. exact Esd.
    + unfold answers_to, answers, answer. rewrite Esd, Em. reflexivity.
Qed.

Lemma event_spec s m : inv s -> quiet s -> valid_message m ->
  match on_event s m with
  | Ok (s1, out) => event_ok s m s1 out
  | _ => fatal s m
  end.
Proof.
  intros I Hq Hv. pose proof I as [M Hnc]. destruct m as [r|n|id]; cbn [on_event].
  - pose proof (on_request_spec s r I Hq). destruct (on_request s r); auto.
  - destruct n as [|[id|]|[[]|]|[p|]|[p|]|[u|]|method]; cbn [on_notification extract bind]; try (constructor; fail).
    + apply event_plain; auto; try reflexivity.
    + unfold cancel. rewrite Hq. cbn. apply event_plain; auto; try reflexivity.
    + apply event_plain; auto; try reflexivity.
    + (* didOpen *)
      pose proof (did_open_spec s p I Hv) as H. destruct p as [u ver t]. cbn [op_url op_version op_text] in *.
      destruct u as [comps|]; cbn [vfs_path] in H.
      * destruct H as [[v' [b [H1 [H2 H3]]]]|[Hm [w Hw]]].
        -- rewrite H2. cbn [bind].
           destruct (vfs_set_spec _ _ _ _ _ (proj1 (m_vfs _ _ _ _ _ _ _ _ _ M)) H1) as [id [_ [_ [Hc [Hco _]]]]].
           split; auto; try reflexivity.
           ++ intros cs. unfold doc. cbn [s_docs s_vfs with_vfs with_docs].
              destruct (vpath_dec (Real cs) (Real comps)) as [E|E].
              ** apply real_inj in E as ->. rewrite (alookup_insert _ vpath_eqb_eq), Hc. apply ds_open.
              ** rewrite (alookup_insert_ne _ vpath_eqb_eq) by congruence. rewrite Hco by auto.
                 apply ds_other. cbn. congruence.
           ++ apply (interner_growth _ _ _ _ _ (proj1 (m_vfs _ _ _ _ _ _ _ _ _ M)) H1).
        -- rewrite Hw. cbn [bind]. apply fatal_files; auto.
      * rewrite H. cbn [bind]. apply event_plain; auto; try reflexivity. cbn. discriminate.
    + (* didChange *)
      pose proof (did_change_spec s p I Hv) as H. destruct p as [u ver chs]. cbn [cp_url cp_version cp_changes] in *.
      destruct u as [comps|]; cbn [vfs_path] in H.
      * destruct (alookup vpath_eqb (Real comps) (s_docs s)) as [ov|] eqn:Ed.
        -- destruct H as [t [Hs [Hcon H]]]. cbn zeta in H.
           destruct (apply_document_changes t chs) as [t'|w|] eqn:Ea.
           ++ destruct H as [Hs' [[v' [b [H1 [H2 H3]]]]|[Hm [w Hw]]]].
              ** rewrite H2. cbn [bind].
                 destruct (vfs_set_spec _ _ _ _ _ (proj1 (m_vfs _ _ _ _ _ _ _ _ _ M)) H1) as [id [_ [_ [Hc [Hco _]]]]].
                 split; auto; try reflexivity.
                 --- intros cs. unfold doc. cbn [s_docs s_vfs with_vfs with_docs].
                     destruct (vpath_dec (Real cs) (Real comps)) as [E|E].
                     +++ apply real_inj in E as ->. rewrite (alookup_insert _ vpath_eqb_eq), Hc, Ed, Hcon. apply ds_change; auto.
                     +++ rewrite (alookup_insert_ne _ vpath_eqb_eq) by congruence. rewrite Hco by auto.
                         apply ds_other. cbn. congruence.
                 --- apply (interner_growth _ _ _ _ _ (proj1 (m_vfs _ _ _ _ _ _ _ _ _ M)) H1).
              ** rewrite Hw. cbn [bind]. apply fatal_files; auto.
           ++ rewrite H. cbn [bind]. eapply fatal_edit; cbn [cp_url cp_changes vfs_path]; eauto. congruence.
           ++ exfalso. eapply apply_changes_fuel; eauto.
        -- rewrite H. cbn [bind]. split; auto; try reflexivity.
           ++ intros cs. unfold doc. destruct (vpath_dec (Real cs) (Real comps)) as [E|E].
              ** apply real_inj in E as ->. rewrite Ed. apply ds_ignored. reflexivity.
              ** apply ds_other. cbn. congruence.
           ++ unfold grows. lia.
      * rewrite H. cbn [bind]. apply event_plain; auto; try reflexivity. cbn. discriminate.
    + (* didClose *)
      pose proof (did_close_spec s u I) as Hm. unfold did_close in *. destruct u as [comps|]; cbn [vfs_path] in *.
      * split; auto; try reflexivity.
        -- intros cs. unfold doc. cbn [s_docs s_vfs with_docs]. destruct (vpath_dec (Real cs) (Real comps)) as [E|E].
           ++ apply real_inj in E as ->. rewrite (alookup_remove vpath_eqb). apply ds_close.
           ++ rewrite (alookup_remove_ne _ vpath_eqb_eq) by congruence. apply ds_other. cbn. congruence.
        -- unfold grows. cbn. lia.
      * apply event_plain; auto; try reflexivity. cbn. discriminate.
    + apply event_plain; auto; try reflexivity.
  - unfold complete_request. destruct (alookup id_eqb id (s_outgoing s)) as [mt|] eqn:E; cbn [unwrap bind].
    + apply event_plain; auto; try reflexivity.
    + apply fatal_response; auto.
Qed.

(** ** Tasks *)
Lemma remove_nth_perm {A} (l : list A) : forall i x r, remove_nth i l = Some (x, r) -> Permutation (x :: r) l.
Proof.
  induction l as [|y l IH]; intros i x r; [destruct i; discriminate|].
  destruct i as [|i]; cbn [remove_nth]; [intros H; injection H as <- <-; reflexivity|].
  destruct (remove_nth i l) as [[z r']|] eqn:E; [|discriminate]. intros H; injection H as <- <-.
  rewrite perm_swap. constructor. eapply IH; eauto.
Qed.
Lemma pick_tasks_perm picks : forall bag ts bag', pick_tasks picks bag = (ts, bag') -> Permutation (ts ++ bag') bag.
Proof.
  induction picks as [|i picks IH]; intros bag ts bag'; cbn [pick_tasks].
  - intros H; injection H as <- <-. reflexivity.
  - destruct (remove_nth i bag) as [[t bag1]|] eqn:E; [|apply IH].
    destruct (pick_tasks picks bag1) as [ts1 bag2] eqn:E2. intros H; injection H as <- <-.
    cbn [app]. rewrite (IH _ _ _ E2). eapply remove_nth_perm; eauto.
Qed.

Lemma set_insert_In x y s : In y (set_insert x s) <-> y = x \/ In y s.
Proof.
  unfold set_insert. destruct (existsb (N.eqb x) s) eqn:E.
  - split; [auto|]. intros [->|]; auto. apply existsb_exists in E as [z [Hz Ez]]. apply N.eqb_eq in Ez as ->. auto.
  - rewrite in_app_iff. cbn. intuition.
Qed.
Lemma set_native_check c id ds : dc_check (set_native_diagnostics c id ds) = dc_check c.
Proof. unfold set_native_diagnostics. destruct (match alookup N.eqb id (dc_native c) with Some _ => _ | None => _ end); reflexivity. Qed.
Lemma set_native_ids c id ds x :
  In x (dc_changes (set_native_diagnostics c id ds) ++ map fst (dc_native (set_native_diagnostics c id ds))) ->
  x = id \/ In x (dc_changes c ++ map fst (dc_native c)).
Proof.
  unfold set_native_diagnostics. destruct (match alookup N.eqb id (dc_native c) with Some _ => _ | None => _ end); auto.
  cbn [dc_changes dc_native]. rewrite !in_app_iff, set_insert_In, (ainsert_keys _ Neqb_spec). tauto.
Qed.
Definition set_all (c : collection) (l : list (N * list lsp_diag)) : collection :=
  fold_left (fun c p => set_native_diagnostics c (fst p) (snd p)) l c.
Lemma set_all_check l : forall c, dc_check (set_all c l) = dc_check c.
Proof. induction l as [|[i d] l IH]; intros c; cbn [set_all fold_left]; [auto|]. etransitivity; [apply IH|]. apply set_native_check. Qed.
Lemma set_all_ids l : forall c x,
  In x (dc_changes (set_all c l) ++ map fst (dc_native (set_all c l))) -> In x (map fst l) \/ In x (dc_changes c ++ map fst (dc_native c)).
Proof.
  induction l as [|[i d] l IH]; intros c x; cbn [set_all fold_left map fst snd]; [auto|]. intros H.
  apply IH in H as [H|H]; [left; right; auto|]. apply set_native_ids in H as [->|H]; [left; left; auto|auto].
Qed.
Definition absorb (c : collection) (ts : list task) : collection :=
  fold_left (fun c t => match t with TDiagnostics l => set_all c l | TResponse _ _ => c end) ts c.
Lemma handle_tasks_spec ts : forall s, (forall id b, ~ In (TResponse id b) ts) ->
  handle_tasks s ts = (with_diags s (absorb (s_diags s) ts), []).
Proof.
  induction ts as [|t ts IH]; intros s H; cbn [handle_tasks]; [destruct s; reflexivity|].
  destruct t as [id b|l]; [exfalso; apply (H id b); left; auto|]. cbn [handle_task].
  rewrite IH by (intros id b Hin; apply (H id b); right; auto). reflexivity.
Qed.
Lemma absorb_check ts : forall c, dc_check (absorb c ts) = dc_check c.
Proof.
  induction ts as [|t ts IH]; intros c; cbn [absorb fold_left]; [auto|]. etransitivity; [apply IH|].
  destruct t; [auto|apply set_all_check].
Qed.
Lemma absorb_ids ts : forall c x,
  In x (dc_changes (absorb c ts) ++ map fst (dc_native (absorb c ts))) -> In x (done_ids ts) \/ In x (dc_changes c ++ map fst (dc_native c)).
Proof.
  induction ts as [|t ts IH]; intros c x; cbn [absorb fold_left done_ids flat_map]; [auto|]. intros H.
  rewrite in_app_iff. apply IH in H as [H|H]; [auto|]. destruct t as [id b|l]; [auto|].
  apply set_all_ids in H. tauto.
Qed.
Lemma done_ids_perm a b x : Permutation a b -> In x (done_ids a) -> In x (done_ids b).
Proof.
  intros H. unfold done_ids. rewrite !in_flat_map. intros [t [Ht Hx]]. exists t. split; auto. eapply Permutation_in; eauto.
Qed.

Section Steps.
  Context (ho : hash_order).

  Definition label_doc (comps : list text) (l : label) : option (Z * option bytes) -> option (Z * option bytes) -> Prop :=
    match l with LMsg m _ => doc_step comps m | _ => eq end.
  Definition label_down (down : bool) (l : label) : bool := match l with LMsg m _ => down_after down m | _ => down end.
  Definition label_outgoing (l : label) (o : list (request_id * text)) : list (request_id * text) :=
    match l with LMsg (MResponse id) _ => aremove id_eqb id o | _ => o end.

  Record step_ok (s : state) (l : label) (s' : state) (out : list output) : Prop := {
    k_inv : inv s';
    k_quiet : quiet s';
    k_shutdown : s_shutdown s' = label_down (s_shutdown s) l;
    k_responses : responses out = answers (s_shutdown s) (label_messages l);
    k_requests : forall id m, ~ In (ORequest id m) out;
    k_doc : forall comps, label_doc comps l (doc s comps) (doc s' comps);
    k_outgoing : s_outgoing s' = label_outgoing l (s_outgoing s);
    k_roots : s_roots s' = s_roots s;
    k_grows : grows s s';
    k_publishes : forall u v ds, In (OPublish u v ds) out ->
      exists comps, u = UFile comps /\ root_is_library (s_roots s) (Real comps) = false
  }.

  Lemma doc_front s s' comps : same_front s s' -> doc s' comps = doc s comps.
  Proof. intros F. unfold doc, contents. rewrite (sf_docs _ _ F), (sf_interner _ _ F), (sf_data _ _ F). reflexivity. Qed.
  Lemma publication_not_response s ids id b : ~ In (OResponse id b) (flat_map (publication s) ids).
  Proof.
    rewrite in_flat_map. intros [x [_ H]]. unfold publication in H. destruct (vfs_file_path _ _) as [[]| |]; try destruct H.
    destruct (root_is_library _ _); [destruct H|]. destruct H as [H|[]]; discriminate.
  Qed.
  Lemma publication_not_request s ids id m : ~ In (ORequest id m) (flat_map (publication s) ids).
  Proof.
    rewrite in_flat_map. intros [x [_ H]]. unfold publication in H. destruct (vfs_file_path _ _) as [[]| |]; try destruct H.
    destruct (root_is_library _ _); [destruct H|]. destruct H as [H|[]]; discriminate.
  Qed.
  Lemma publication_local s ids u v ds : In (OPublish u v ds) (flat_map (publication s) ids) ->
    exists comps, u = UFile comps /\ root_is_library (s_roots s) (Real comps) = false.
  Proof.
    rewrite in_flat_map. intros [x [_ H]]. unfold publication in H. destruct (vfs_file_path _ _) as [[comps|]| |]; try destruct H.
    destruct (root_is_library _ _) eqn:E; [destruct H|]. destruct H as [H|[]]. injection H as <- _ _. eauto.
  Qed.
  Lemma responses_app a b : responses (a ++ b) = responses a ++ responses b.
  Proof. apply flat_map_app. Qed.
  Lemma responses_none out : (forall id b, ~ In (OResponse id b) out) -> responses out = [].
  Proof.
    unfold responses. induction out as [|o out IH]; intros H; cbn [flat_map]; [auto|]. rewrite (IH ltac:(intros id b Hin; apply (H id b); right; auto)).
    destruct o; auto. exfalso. eapply H. left. reflexivity.
  Qed.
  Lemma responses_map l : responses (map (fun a => OResponse (fst a) (snd a)) l) = l.
  Proof. induction l as [|[i b] l IH]; cbn; [auto|]. f_equal. apply IH. Qed.

  Lemma handle_message_spec s m cuts : inv s -> quiet s -> valid_message m ->
    (exists s1 s' out1 out2, on_event s m = Ok (s1, out1) /\ event_ok s m s1 out1 /\
       turned ho s1 true cuts s' out2 /\
       handle_message ho s m cuts = Ok (s', out1 ++ out2) /\ step_ok s (LMsg m cuts) s' (out1 ++ out2)) \/
    (fatal s m /\ exists w, handle_message ho s m cuts = Panic w).
  Proof.
    intros I Hq Hv. unfold handle_message. rewrite (is_quiescent_mid s (proj1 I)).
    change (match m with MRequest r => Ok (on_request s r) | MNotification n => on_notification s n
            | MResponse id => let! s0 := complete_request s id in Ok (s0, []) end) with (on_event s m).
    pose proof (event_spec s m I Hq Hv) as He. destruct (on_event s m) as [[s1 out1]|w|] eqn:E.
    - left. destruct (finish_turn_spec ho s1 true cuts (e_mid _ _ _ _ He)) as [s' [out2 [Hf T]]].
      exists s1, s', out1, out2. split; [auto|]. split; [auto|]. split; [auto|]. cbn [bind]. rewrite Hf. cbn [bind]. split; [reflexivity|].
      pose proof (t_front _ _ _ _ _ _ T) as F. pose proof (t_out _ _ _ _ _ _ T) as Ho.
      split; cbn [label_down label_messages label_doc label_outgoing].
      + apply T.
      + unfold quiet. rewrite (sf_incoming _ _ F). apply He.
      + rewrite (sf_shutdown _ _ F). apply He.
      + rewrite responses_app, (e_out _ _ _ _ He), responses_map. rewrite (responses_none out2).
        * rewrite app_nil_r. reflexivity.
        * rewrite Ho. intros id b. apply publication_not_response.
      + intros id mt Hin. rewrite in_app_iff in Hin. destruct Hin as [Hin|Hin].
        * rewrite (e_out _ _ _ _ He) in Hin. apply in_map_iff in Hin as [? [? _]]. discriminate.
        * rewrite Ho in Hin. eapply publication_not_request; eauto.
      + intros comps. rewrite (doc_front _ _ _ F). apply He.
      + rewrite (sf_outgoing _ _ F), (e_outgoing _ _ _ _ He). destruct m; reflexivity.
      + rewrite (sf_roots _ _ F). apply He.
      + unfold grows. rewrite (sf_interner _ _ F). apply He.
      + intros u v ds Hin. rewrite in_app_iff in Hin. destruct Hin as [Hin|Hin].
        * rewrite (e_out _ _ _ _ He) in Hin. apply in_map_iff in Hin as [? [? _]]. discriminate.
        * rewrite Ho in Hin. apply publication_local in Hin. rewrite (sf_roots _ _ F), (e_roots _ _ _ _ He) in Hin. exact Hin.
    - right. split; [auto|]. cbn [bind]. eauto.
    - exfalso. destruct m as [r|n|id]; cbn [on_event] in E; [discriminate| |].
      + destruct n as [|[i|]|[[]|]|[p|]|[p|]|[u|]|mt]; cbn [on_notification extract bind] in E; try discriminate.
        * unfold did_open in E. destruct (vfs_path (op_url p)); cbn [bind] in E; [|discriminate].
          cbn [s_vfs with_docs] in E.
          destruct (vfs_set_outcome (s_vfs s) v (Some (encode (op_text p))) (proj1 (m_vfs _ _ _ _ _ _ _ _ _ (proj1 I)))) as [[v' [b Hs]]|[_ [w Hs]]];
            rewrite Hs in E; cbn [bind] in E; discriminate.
        * pose proof (did_change_spec s p I Hv) as H. destruct (vfs_path (cp_url p)); [|rewrite H in E; discriminate].
          destruct (alookup _ _ _); [|rewrite H in E; discriminate]. destruct H as [t [_ [_ H]]]. cbn zeta in H.
          destruct (apply_document_changes t (cp_changes p)) eqn:Ea.
          -- destruct H as [_ [[v' [b [_ [H _]]]]|[_ [w H]]]]; rewrite H in E; discriminate.
          -- rewrite H in E; discriminate.
          -- eapply apply_changes_fuel; eauto.
      + unfold complete_request in E. destruct (alookup _ _ _); discriminate.
  Qed.

  Lemma received_spec s ts bag : inv s -> quiet s -> Permutation (ts ++ bag) (s_done s) ->
    exists s' out, handle_received ho (with_tasks s (s_jobs s) bag) ts = Ok (s', out) /\
      turned ho (with_diags (with_tasks s (s_jobs s) bag) (absorb (s_diags s) ts)) true [] s' out /\
      forall l, label_messages l = [] -> step_ok s l s' out.
  Proof.
    intros I Hq Hp. pose proof I as [M Hnc]. unfold handle_received.
    pose proof M as [Hcfg Hv Hch Hroot Htext Hdn Hd Hm Hj Hpr Hck Hnr].
    change (is_quiescent (with_tasks s (s_jobs s) bag)) with (is_quiescent s). rewrite (is_quiescent_mid s M).
    assert (Hnr' : forall id b, ~ In (TResponse id b) ts).
    { intros id b Hin. apply (Hnr id b). eapply Permutation_in; [exact Hp|]. apply in_app_iff. auto. }
    rewrite handle_tasks_spec by auto. change (s_diags (with_tasks s (s_jobs s) bag)) with (s_diags s).
    set (s1 := with_diags _ _).
    assert (M1 : mid s1).
    { unfold mid. cbn [s1 s_roots s_vfs s_endings s_db s_docs s_diags s_jobs s_done s_progress with_diags with_tasks]. split; auto.
      - intros id Hin. apply Hm. unfold mentioned in *. rewrite app_assoc, in_app_iff in Hin. rewrite !in_app_iff in Hin. rewrite !in_app_iff.
        destruct Hin as [Hin|[Hin|Hin]].
        + rewrite <- in_app_iff in Hin. apply absorb_ids in Hin as [Hin|Hin].
          * right; right; right. eapply done_ids_perm; [exact Hp|]. rewrite done_ids_app, in_app_iff. auto.
          * rewrite in_app_iff in Hin. tauto.
        + tauto.
        + right; right; right. eapply done_ids_perm; [exact Hp|]. rewrite done_ids_app, in_app_iff. auto.
      - rewrite absorb_check. auto.
      - intros id b Hin. apply (Hnr id b). eapply Permutation_in; [exact Hp|]. apply in_app_iff. auto. }
    destruct (finish_turn_spec ho s1 true [] M1) as [s' [out [Hf T]]]. rewrite Hf. cbn [bind app].
    exists s', out. split; [auto|]. split; [auto|]. intros l Hl.
    pose proof (t_front _ _ _ _ _ _ T) as F. pose proof (t_out _ _ _ _ _ _ T) as Ho.
    assert (Fs : same_front s s') by (destruct F; split; assumption).
    split.
    + apply T.
    + unfold quiet. rewrite (sf_incoming _ _ Fs). apply Hq.
    + rewrite (sf_shutdown _ _ Fs). destruct l; [discriminate|reflexivity|reflexivity|reflexivity].
    + rewrite Hl. apply responses_none. rewrite Ho. intros id b. apply publication_not_response.
    + intros id m Hin. rewrite Ho in Hin. eapply publication_not_request; eauto.
    + intros comps. rewrite (doc_front _ _ _ Fs). destruct l; [discriminate|reflexivity|reflexivity|reflexivity].
    + rewrite (sf_outgoing _ _ Fs). destruct l; [discriminate|reflexivity|reflexivity|reflexivity].
    + apply Fs.
    + unfold grows. rewrite (sf_interner _ _ Fs). lia.
    + intros u v ds Hin. rewrite Ho in Hin. apply publication_local in Hin. rewrite (sf_roots _ _ Fs) in Hin. exact Hin.
  Qed.

  Lemma step_ok_same s l : inv s -> quiet s -> label_messages l = [] -> step_ok s l s [].
  Proof.
    intros I Hq Hl. split; auto; try (destruct l; [discriminate|reflexivity..]); try (intros; intros []).
    - unfold grows. lia.
    - intros u v ds [].
  Qed.

  Lemma worker_inv s i j rest : inv s -> remove_nth i (s_jobs s) = Some (j, rest) ->
    inv (with_tasks s rest (s_done s ++ job_run (s_endings s) j (length (jb_files j)))).
  Proof.
    intros [M Hnc] E. pose proof (remove_nth_perm _ _ _ _ E) as Hp. split; [|exact Hnc].
    destruct M as [Hcfg Hv Hch Hroot Htext Hdn Hd Hm Hj Hpr Hck Hnr].
    unfold mid. cbn [s_roots s_vfs s_endings s_db s_docs s_diags s_jobs s_done s_progress with_tasks]. split; auto.
    - intros id Hin. apply Hm. unfold mentioned in *. rewrite !in_app_iff in Hin. rewrite !in_app_iff. rewrite done_ids_app, in_app_iff in Hin.
      assert (G : forall k, In k (j :: rest) -> In id (jb_files k) -> In id (flat_map jb_files (s_jobs s))).
      { intros k Hk Hid. apply in_flat_map. exists k. split; auto. eapply Permutation_in; eauto. }
      destruct Hin as [?|[?|[Hin|[?|Hin]]]]; auto.
      + apply in_flat_map in Hin as [k [Hk Hid]]. right; right; left. apply (G k); auto. right; auto.
      + apply job_run_ids in Hin. right; right; left. apply (G j); auto. left; auto.
    - intros k id Hk. apply Hj. eapply Permutation_in; [exact Hp|]. right; auto.
    - intros id b Hin. apply in_app_iff in Hin as [Hin|Hin]; [eapply Hnr; eauto|eapply job_run_no_response; eauto].
  Qed.

  Lemma step_spec s l : inv s -> quiet s -> Forall valid_message (label_messages l) ->
    match step ho s l with
    | Continue s' out => step_ok s l s' out
    | Exits => exists cuts, l = LMsg (MNotification NExit) cuts
    | Fails => l = LHangup
    | Dies w => exists m cuts, l = LMsg m cuts /\ fatal s m
    | OutOfFuel => False
    end.
  Proof.
    intros I Hq Hv. destruct l as [m cuts|picks|i|]; cbn [step].
    - assert (G : match of_res (handle_message ho s m cuts) with
                  | Continue s' out => step_ok s (LMsg m cuts) s' out
                  | Dies w => fatal s m
                  | _ => False
                  end).
      { apply Forall_inv in Hv. destruct (handle_message_spec s m cuts I Hq Hv) as [[s1 [s' [o1 [o2 [_ [_ [_ [H K]]]]]]]]|[Hf [w H]]];
          rewrite H; cbn [of_res]; auto. }
      destruct m as [r|n|id]; [| |].
      + destruct (of_res _); auto; try contradiction; eauto.
      + destruct n; try (destruct (of_res _); auto; try contradiction; eauto; fail).
      + destruct (of_res _); auto; try contradiction; eauto.
    - destruct (pick_tasks picks (s_done s)) as [ts bag] eqn:E. pose proof (pick_tasks_perm _ _ _ _ E) as Hp.
      destruct ts as [|t ts]; [apply step_ok_same; auto|].
      destruct (received_spec s (t :: ts) bag I Hq Hp) as [s' [out [H [_ K]]]]. rewrite H. cbn [of_res]. apply K. reflexivity.
    - destruct (remove_nth i (s_jobs s)) as [[j rest]|] eqn:E; [|apply step_ok_same; auto].
      pose proof (worker_inv _ _ _ _ I E) as I'. split; auto; try reflexivity.
      + unfold grows. cbn. lia.
      + intros u v ds [].
    - reflexivity.
  Qed.
End Steps.
