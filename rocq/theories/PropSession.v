(** Property C56: a session from the start of the process to its end. *)
From Coq Require Import String Sorted Permutation.
From Verif Require Import Base BaseProofs LineIndex Vfs Database DiagSpec Project Server ServerInv ServerRun ServerSpec ServerTheorems
  PropServer PropProject Session SessionSpec.
Local Open Scope N_scope.

(** ** The handshake *)
Lemma finish_spec ls :
  match initialize_finish ls with
  | Got _ rest => confirms ls rest
  | Waiting => Forall silent ls
  | Broken => exists pre l rest, ls = pre ++ l :: rest /\ Forall silent pre
  end.
Proof.
  induction ls as [|l ls IH]; cbn [initialize_finish]; [constructor|].
  destruct l as [m cuts|picks|i|].
  - destruct m as [r|n|id].
    + exists [], (LMsg (MRequest r) cuts), ls. auto.
    + destruct (is_initialized n) eqn:E.
      * destruct n; try discriminate. apply text_eqb_eq in E. subst. apply confirms_now.
      * exists [], (LMsg (MNotification n) cuts), ls. auto.
    + exists [], (LMsg (MResponse id) cuts), ls. auto.
  - destruct (initialize_finish ls).
    + constructor; [exact I|exact IH].
    + destruct IH as (pre & l & rest & -> & F). exists (LTasks picks :: pre), l, rest. split; [reflexivity|]. constructor; [exact I|exact F].
    + apply confirms_silent; [exact I|exact IH].
  - destruct (initialize_finish ls).
    + constructor; [exact I|exact IH].
    + destruct IH as (pre & l & rest & -> & F). exists (LWorker i :: pre), l, rest. split; [reflexivity|]. constructor; [exact I|exact F].
    + apply confirms_silent; [exact I|exact IH].
  - exists [], LHangup, ls. auto.
Qed.
Lemma confirms_finish ls rest : confirms ls rest -> initialize_finish ls = Got tt rest.
Proof.
  induction 1 as [l ls rest S _ IH|cuts rest]; [|reflexivity].
  destruct l; try contradiction; exact IH.
Qed.

Lemma start_spec ls : forall out w, initialize_start ls = (out, w) ->
  match w with
  | Got r rest => exists early, asked early r ls rest /\ out = map too_early early
  | Waiting => answered out = request_ids (messages ls)
  | Broken => exists handled rest, ls = handled ++ rest /\ rest <> [] /\ answered out = request_ids (messages handled)
  end.
Proof.
  induction ls as [|l ls IH]; intros out w; cbn [initialize_start].
  { intros E. injection E as <- <-. reflexivity. }
  destruct l as [m cuts|picks|i|].
  - destruct m as [r|n|id].
    + destruct (is_initialize r) eqn:E.
      * intros X. injection X as <- <-. exists []. split; [|reflexivity]. apply asked_now. apply text_eqb_eq. exact E.
      * destruct (initialize_start ls) as [o w'] eqn:F. intros X. injection X as <- <-. specialize (IH _ _ eq_refl).
        destruct w' as [| |r' rest].
        -- unfold messages in *. cbn [flat_map label_messages app request_ids answered]. rewrite <- IH. reflexivity.
        -- destruct IH as (h & rest & -> & Hn & A). exists (LMsg (MRequest r) cuts :: h), rest. split; [reflexivity|]. split; [exact Hn|].
           unfold messages in *. cbn [flat_map label_messages app request_ids answered]. rewrite <- A. reflexivity.
        -- destruct IH as (early & A & ->). exists (r :: early). split; [|reflexivity]. apply asked_early; [|exact A].
           intros X. unfold is_initialize in E. rewrite X in E. rewrite (proj2 (text_eqb_eq _ _) eq_refl) in E. discriminate.
    + intros X. injection X as <- <-. exists [], (LMsg (MNotification n) cuts :: ls). split; [reflexivity|]. split; [discriminate|reflexivity].
    + intros X. injection X as <- <-. exists [], (LMsg (MResponse id) cuts :: ls). split; [reflexivity|]. split; [discriminate|reflexivity].
  - intros X. specialize (IH _ _ X). destruct w as [| |r rest].
    + exact IH.
    + destruct IH as (h & rest & -> & Hn & A). exists (LTasks picks :: h), rest. auto.
    + destruct IH as (early & A & ->). exists early. split; [|reflexivity]. apply asked_silent; [exact I|exact A].
  - intros X. specialize (IH _ _ X). destruct w as [| |r rest].
    + exact IH.
    + destruct IH as (h & rest & -> & Hn & A). exists (LWorker i :: h), rest. auto.
    + destruct IH as (early & A & ->). exists early. split; [|reflexivity]. apply asked_silent; [exact I|exact A].
  - intros X. injection X as <- <-. exists [], (LHangup :: ls). split; [reflexivity|]. split; [discriminate|reflexivity].
Qed.
Lemma asked_start early r ls rest : asked early r ls rest -> initialize_start ls = (map too_early early, Got r rest).
Proof.
  induction 1 as [early r l ls rest S _ IH|early r x cuts ls rest N _ IH|r cuts rest E]; cbn [initialize_start].
  - destruct l; try contradiction; exact IH.
  - destruct (is_initialize x) eqn:E; [apply text_eqb_eq in E; contradiction|]. rewrite IH. reflexivity.
  - unfold is_initialize. rewrite E, (proj2 (text_eqb_eq _ _) eq_refl). reflexivity.
Qed.
Lemma asked_ids early r ls rest : asked early r ls rest ->
  exists h cuts, ls = h ++ LMsg (MRequest r) cuts :: rest /\ request_ids (messages h) = map rq_id early.
Proof.
  induction 1 as [early r l ls rest S _ (h & cuts & -> & E)|early r x cuts ls rest N _ (h & cuts' & -> & E)|r cuts rest E].
  - exists (l :: h), cuts. split; [reflexivity|]. destruct l; try contradiction; exact E.
  - exists (LMsg (MRequest x) cuts :: h), cuts'. split; [reflexivity|]. unfold messages in *. cbn. rewrite E. reflexivity.
  - exists [], cuts. split; reflexivity.
Qed.
Lemma confirms_ids ls rest : confirms ls rest -> exists h, ls = h ++ rest /\ request_ids (messages h) = [].
Proof.
  induction 1 as [l ls rest S _ (h & -> & E)|cuts rest].
  - exists (l :: h). split; [reflexivity|]. destruct l; try contradiction; exact E.
  - exists [LMsg (MNotification (NOther (`"initialized"))) cuts]. split; reflexivity.
Qed.
Lemma answered_app a b : answered (a ++ b) = answered a ++ answered b.
Proof. apply flat_map_app. Qed.
Lemma answered_early l : answered (map too_early l) = map rq_id l.
Proof. induction l as [|r l IH]; [reflexivity|]. cbn. unfold answered in IH. rewrite IH. reflexivity. Qed.
Lemma answered_messages out : answered (map RMessage out) = map fst (responses out).
Proof.
  induction out as [|o out IH]; [reflexivity|]. unfold answered, responses in *. cbn [map flat_map]. rewrite map_app, IH.
  destruct o; reflexivity.
Qed.
Lemma request_ids_app a b : request_ids (a ++ b) = request_ids a ++ request_ids b.
Proof. induction a as [|m a IH]; [reflexivity|]. destruct m; cbn [app request_ids]; rewrite IH; reflexivity. Qed.

Lemma default_buildable : buildable root_config_default.
Proof. exists []. split; reflexivity. Qed.

Section Sessions.
  Context (ho : hash_order) (decode_params : json -> option init_params) (cwd : option abs_path).
  Context (fs : filesystem) (order : list manifest -> list manifest) (order_ok : forall l, Permutation (order l) l).
  Notation session := (session ho decode_params cwd fs order).

  Lemma root_spec p : match root_path cwd p with Some d => root_is cwd p d | None => cwd = None /\ forall d, ip_root p <> Some (DirFile d) end.
  Proof.
    unfold root_path. destruct (ip_root p) as [[comps|s]|] eqn:E; cbn [url_path].
    - apply root_uri. exact E.
    - destruct cwd eqn:C; [apply root_cwd; congruence|split; congruence].
    - destruct cwd eqn:C; [apply root_cwd; congruence|split; congruence].
  Qed.
  Lemma root_unique p d d' : root_is cwd p d -> root_is cwd p d' -> d = d'.
  Proof. intros [c E|x N E] [c' E'|x' N' E']; try congruence. Qed.
  Lemma roots_spec root caps p d : In d (workspace_roots (config_new root caps) p) <-> searched p root d.
  Proof.
    unfold workspace_roots, searched, folder.
    set (l := match ip_folders p with Some l => _ | None => [] end).
    assert (F : forall x, In x l <-> exists u, ip_folders p = Some u /\ In (DirFile x) u).
    { intros x. subst l. destruct (ip_folders p) as [u|].
      - rewrite in_flat_map. split.
        + intros (y & Hy & Hx). destruct y as [d'|s]; [|destruct Hx]. destruct Hx as [<-|[]]. eauto 6.
        + intros (u' & E & Hu). injection E as <-. exists (DirFile x). split; [exact Hu|left; reflexivity].
      - split; [intros []|intros (u & E & _); discriminate]. }
    destruct l as [|x l].
    - split.
      + intros [<-|[]]. right. split; [|reflexivity]. intros d' H. apply F in H. exact H.
      + intros [H|[_ ->]]; [|left; reflexivity]. apply F in H. destruct H.
    - rewrite F. split; [auto|]. intros [H|[N _]]; [exact H|]. exfalso. apply (N x). apply F. left. reflexivity.
  Qed.
  Lemma utf8_spec caps : supports_utf8 caps = true <-> knows_utf8 caps.
  Proof.
    unfold supports_utf8, knows_utf8. destruct (cc_offset_encoding caps) as [l|].
    - rewrite existsb_exists. split.
      + intros (x & Hx & E). apply text_eqb_eq in E. subst x. eauto.
      + intros (l' & E & H). injection E as <-. exists (`"utf-8"). split; [exact H|apply text_eqb_eq; reflexivity].
    - split; [discriminate|intros (l & E & _); discriminate].
  Qed.
  Lemma saves_spec c : did_save_registration c = true <-> can_register_saves (cf_caps c).
  Proof.
    unfold did_save_registration, can_register_saves. destruct (cc_text_document (cf_caps c)) as [[s|]|]; cbn.
    - rewrite andb_true_iff. split.
      + intros [A B]. exists s. split; [reflexivity|]. destruct (sc_did_save s) as [[|]|], (sc_dynamic_registration s) as [[|]|]; try discriminate. auto.
      + intros (s' & E & A & B). injection E as <-. rewrite A, B. auto.
    - split; [discriminate|]. intros (s & E & _). discriminate.
    - split; [discriminate|]. intros (s & E & _). discriminate.
  Qed.

  (** ** C56.  After a complete handshake the client is served: the requests
      that came too early are refused, initialize is answered, and the rest of
      the session is that of the main loop. *)
  Theorem C56_handshake : forall early r ls rest p root,
    opened early r ls rest -> decode_params (rq_params r) = Some p -> root_is cwd p root ->
    exists result c out e,
      serve ho root_config_default (did_save_registration c) rest = (out, e) /\
      session ls = (map too_early early ++ RInitialize (rq_id r) result :: map RMessage out, process_end c e) /\
      (* what is announced *)
      ir_open_close result = Some true /\ ir_change result = Some SyncFull /\
      (ir_offset_encoding result = Some (`"utf-8") <-> knows_utf8 (ip_caps p)) /\
      (ir_offset_encoding result = None <-> ~ knows_utf8 (ip_caps p)) /\
      (* the configuration *)
      cf_caps c = ip_caps p /\ cf_root c = root /\
      offset_encoding c = negotiated (cc_offset_encoding (ip_caps p)) /\
      (did_save_registration c = true <-> can_register_saves (ip_caps p)) /\
      StronglySorted before (linked_projects c) /\
      (forall m, In m (linked_projects c) <->
         exists d found, searched p root d /\ discover fs d = Ok (Some found) /\ In m found).
  Proof.
    intros early r ls rest p root (ls1 & A & C) Hp Hr.
    pose proof (root_spec p) as R. destruct (root_path cwd p) as [root'|] eqn:Er.
    2:{ destruct R as [R1 R2]. exfalso. destruct Hr as [comps E|d N E]; [eapply R2; exact E|congruence]. }
    assert (root' = root) by (eapply root_unique; eauto). subst root'.
    destruct (C38_discover_all order fs (workspace_roots (config_new root (ip_caps p)) p) order_ok) as (ms & D & So & _ & Hm).
    set (c := {| cf_caps := ip_caps p; cf_projects := Some ms; cf_root := root |}).
    destruct (serve ho root_config_default (did_save_registration c) rest) as [out e] eqn:S.
    exists (initialize_result (config_new root (ip_caps p))), c, out, e. split; [exact S|]. split.
    { unfold Session.session. rewrite (asked_start _ _ _ _ A), Hp, Er, (confirms_finish _ _ C), D. cbn [cf_caps cf_root config_new].
      fold c. rewrite S. rewrite <- app_assoc. reflexivity. }
    split; [reflexivity|]. split; [reflexivity|].
    pose proof (utf8_spec (ip_caps p)) as U. cbn [ir_offset_encoding initialize_result cf_caps config_new].
    split; [|split].
    - destruct (supports_utf8 (ip_caps p)); split; intros H; try reflexivity; try discriminate; [apply U; reflexivity|].
      apply U in H. discriminate.
    - destruct (supports_utf8 (ip_caps p)); split; intros H; try reflexivity; try discriminate.
      + exfalso. apply H, U. reflexivity.
      + intros K. apply U in K. discriminate.
    - split; [reflexivity|]. split; [reflexivity|]. split.
      + unfold offset_encoding, negotiated, supports_utf8. cbn [cf_caps c]. destruct (cc_offset_encoding (ip_caps p)) as [l|]; [|reflexivity].
        assert (X : existsb (fun it => text_eqb it (`"utf-8")) l = existsb (text_eqb (`"utf-8")) l); [|rewrite X; reflexivity].
        induction l as [|a l IH]; [reflexivity|]. cbn [existsb]. rewrite IH. f_equal.
        destruct (text_eqb a (`"utf-8")) eqn:E1, (text_eqb (`"utf-8") a) eqn:E2; try reflexivity;
          [apply text_eqb_eq in E1; subst; rewrite text_eqb_refl in E2|apply text_eqb_eq in E2; subst; rewrite text_eqb_refl in E1]; discriminate.
      + split; [exact (saves_spec c)|]. split; [exact So|]. intros m. cbn [linked_projects cf_projects c]. rewrite Hm. split.
        * intros (d & f & H1 & H2). exists d, f. rewrite <- (roots_spec root (ip_caps p) p d). auto.
        * intros (d & f & H1 & H2). exists d, f. rewrite (roots_spec root (ip_caps p) p d). auto.
  Qed.

  (** The main loop is not reached, and the status is never 0, without one. *)
  Lemma session_cases ls out e : session ls = (out, e) ->
    e = Handshake \/ e = Ended 101 \/
    exists early r rest p root, opened early r ls rest /\ decode_params (rq_params r) = Some p /\ root_is cwd p root.
  Proof.
    unfold Session.session. destruct (initialize_start ls) as [o w] eqn:S. pose proof (start_spec _ _ _ S) as W.
    destruct w as [| |r rest]; [intros X; injection X as _ <-; auto|intros X; injection X as _ <-; auto|].
    destruct W as (early & A & _).
    destruct (decode_params (rq_params r)) as [p|] eqn:Hp; [|intros X; injection X as _ <-; auto].
    pose proof (root_spec p) as R. destruct (root_path cwd p) as [root|]; [|intros X; injection X as _ <-; auto].
    pose proof (finish_spec rest) as F. destruct (initialize_finish rest) as [| |[] rest2] eqn:Fi;
      [intros X; injection X as _ <-; auto|intros X; injection X as _ <-; auto|].
    intros _. right. right. exists early, r, rest2, p, root. split; [exists rest; auto|auto].
  Qed.
  Theorem C56_no_service_without_handshake : forall ls out e,
    session ls = (out, e) -> (e = Ended 0 \/ exists c s, e = Running c s) ->
    exists early r rest p root, opened early r ls rest /\ decode_params (rq_params r) = Some p /\ root_is cwd p root.
  Proof.
    intros ls out e H He. destruct (session_cases _ _ _ H) as [->|[->|X]]; [| |exact X];
      destruct He as [He|(c & s & He)]; discriminate.
  Qed.

  (** Every request that is read is answered once, in order: initialize with
      its result, the others as in the main loop. *)
  Theorem C56_every_request_answered_once : forall ls out e,
    valid_labels ls -> session ls = (out, e) ->
    exists handled rest, ls = handled ++ rest /\ answered out = request_ids (messages handled) /\
      match e with Ended _ => rest <> [] | Handshake | Running _ _ => rest = [] | RanOutOfFuel => False end.
  Proof.
    intros ls out e V H. unfold Session.session in H.
    destruct (initialize_start ls) as [o w] eqn:S. pose proof (start_spec _ _ _ S) as W.
    destruct w as [| |r rest].
    { injection H as <- <-. exists ls, []. rewrite app_nil_r. auto. }
    { injection H as <- <-. destruct W as (h & rest & -> & Hn & A). exists h, rest. auto. }
    destruct W as (early & A & ->). destruct (asked_ids _ _ _ _ A) as (h & cuts & E & Ids).
    assert (Stop : exists handled rest, ls = handled ++ rest /\ answered (map too_early early) = request_ids (messages handled) /\ rest <> []).
    { exists h, (LMsg (MRequest r) cuts :: rest). split; [exact E|]. split; [rewrite answered_early; symmetry; exact Ids|discriminate]. }
    destruct (decode_params (rq_params r)) as [p|]; [|injection H as <- <-; exact Stop].
    destruct (root_path cwd p) as [root|]; [|injection H as <- <-; exact Stop]. clear Stop.
    assert (H1 : forall h2 result, request_ids (messages h2) = [] ->
      answered (map too_early early ++ [RInitialize (rq_id r) result]) = request_ids (messages (h ++ LMsg (MRequest r) cuts :: h2))).
    { intros h2 result Hh. rewrite answered_app, answered_early, messages_app, request_ids_app, Ids.
      change (messages (LMsg (MRequest r) cuts :: h2)) with (MRequest r :: messages h2). cbn [request_ids]. rewrite Hh. reflexivity. }
    pose proof (finish_spec rest) as F. destruct (initialize_finish rest) as [| |[] rest2] eqn:Fi.
    - injection H as <- <-. exists ls, []. rewrite app_nil_r. split; [reflexivity|]. split; [|reflexivity].
      rewrite E. apply H1. clear - F. induction F as [|l ls S _ IH]; [reflexivity|]. destruct l; try contradiction; exact IH.
    - injection H as <- <-. destruct F as (pre & l & rest2 & -> & F). exists (h ++ LMsg (MRequest r) cuts :: pre), (l :: rest2).
      split; [rewrite E, <- app_assoc; reflexivity|]. split; [|discriminate]. apply H1.
      clear - F. induction F as [|l ls S _ IH]; [reflexivity|]. destruct l; try contradiction; exact IH.
    - destruct (confirms_ids _ _ F) as (h2 & -> & Hh2).
      destruct (C38_discover_all order fs (workspace_roots (config_new root (ip_caps p)) p) order_ok) as (ms & D & _).
      rewrite D in H. set (c := {| cf_caps := _; cf_projects := _; cf_root := _ |}) in H.
      destruct (serve ho root_config_default (did_save_registration c) rest2) as [o2 e2] eqn:Sv. injection H as <- <-.
      assert (V2 : valid_labels rest2).
      { unfold valid_labels in *. rewrite E, messages_app in V. apply Forall_app in V as [_ V].
        change (messages (LMsg (MRequest r) cuts :: h2 ++ rest2)) with (MRequest r :: messages (h2 ++ rest2)) in V.
        inversion V as [|? ? _ V']; subst. rewrite messages_app in V'. apply Forall_app in V' as [_ V']. exact V'. }
      destruct (C28_every_request_answered_once ho root_config_default (did_save_registration c) rest2 o2 e2 default_buildable V2 Sv)
        as (hd & rs & -> & R & K).
      exists (h ++ LMsg (MRequest r) cuts :: h2 ++ hd), rs.
      split; [rewrite E, <- !app_assoc; cbn [app]; rewrite <- app_assoc; reflexivity|]. split.
      + rewrite answered_app, (H1 h2 _ Hh2), answered_messages, R.
        replace (h ++ LMsg (MRequest r) cuts :: h2 ++ hd) with ((h ++ LMsg (MRequest r) cuts :: h2) ++ hd) by (rewrite <- app_assoc; reflexivity).
        rewrite (messages_app (h ++ LMsg (MRequest r) cuts :: h2) hd), (request_ids_app (messages (h ++ _))). reflexivity.
      + destruct e2; cbn [process_end]; auto.
        destruct (serve_run ho _ _ _ _ _ Sv) as (out' & Hr & _). destruct (inv_start root_config_default (did_save_registration c) default_buildable) as [Ii Q].
        destruct (run_spec ho _ _ _ _ Ii Q V2 Hr) as (? & ? & ? & _ & _ & _ & _ & _ & _ & _ & _ & _ & []).
  Qed.

  (** ** How the process ends *)
  Lemma opened_app early r ls rest : opened early r ls rest ->
    exists pre, ls = pre ++ rest /\ request_ids (messages pre) = map rq_id early ++ [rq_id r] /\
      forall rest', opened early r (pre ++ rest') rest'.
  Proof.
    intros (ls1 & A & C).
    assert (Hc : exists pre, ls1 = pre ++ rest /\ request_ids (messages pre) = [] /\ forall rest', confirms (pre ++ rest') rest').
    { clear A. induction C as [l ls0 rest S C (pre & -> & Ids & IH)|cuts rest].
      - exists (l :: pre). split; [reflexivity|]. split; [destruct l; try contradiction; exact Ids|]. intros rest'. cbn [app]. apply confirms_silent; auto.
      - exists [LMsg (MNotification (NOther (`"initialized"))) cuts]. split; [reflexivity|]. split; [reflexivity|]. intros rest'. apply confirms_now. }
    destruct Hc as (pre2 & -> & Ids2 & Hc).
    assert (Ha : exists pre, ls = pre ++ pre2 ++ rest /\ request_ids (messages pre) = map rq_id early ++ [rq_id r] /\ forall rest', asked early r (pre ++ rest') rest').
    { clear Hc C. remember (pre2 ++ rest) as rest1 eqn:E. clear E. induction A as [early r l ls rest1 S A (pre & -> & Ids & IH)|early r x cuts ls rest1 N A (pre & -> & Ids & IH)|r cuts rest1 E].
      - exists (l :: pre). split; [reflexivity|]. split; [destruct l; try contradiction; exact Ids|]. intros rest'. cbn [app]. apply asked_silent; auto.
      - exists (LMsg (MRequest x) cuts :: pre). split; [reflexivity|]. split; [unfold messages in *; cbn; rewrite Ids; reflexivity|]. intros rest'. cbn [app]. apply asked_early; auto.
      - exists [LMsg (MRequest r) cuts]. split; [reflexivity|]. split; [reflexivity|]. intros rest'. apply asked_now; auto. }
    destruct Ha as (pre & -> & Ids & Ha). exists (pre ++ pre2). split; [rewrite <- app_assoc; reflexivity|]. split.
    - rewrite messages_app, request_ids_app, Ids, Ids2, app_nil_r. reflexivity.
    - intros rest'. exists (pre2 ++ rest'). split; [rewrite <- app_assoc; apply Ha|apply Hc].
  Qed.
  (** One configuration for all continuations of a handshake. *)
  Lemma session_opened early r p root : decode_params (rq_params r) = Some p -> root_is cwd p root ->
    exists result c, forall ls rest out e, opened early r ls rest ->
      serve ho root_config_default (did_save_registration c) rest = (out, e) ->
      session ls = (map too_early early ++ RInitialize (rq_id r) result :: map RMessage out, process_end c e).
  Proof.
    intros Hp Hr. pose proof (root_spec p) as R. destruct (root_path cwd p) as [root'|] eqn:Er.
    2:{ destruct R as [R1 R2]. exfalso. destruct Hr as [comps E|d N E]; [eapply R2; exact E|congruence]. }
    assert (root' = root) by (eapply root_unique; eauto). subst root'.
    destruct (C38_discover_all order fs (workspace_roots (config_new root (ip_caps p)) p) order_ok) as (ms & D & _).
    exists (initialize_result (config_new root (ip_caps p))), {| cf_caps := ip_caps p; cf_projects := Some ms; cf_root := root |}.
    intros ls rest out e (ls1 & A & C) S.
    unfold Session.session. rewrite (asked_start _ _ _ _ A), Hp, Er, (confirms_finish _ _ C), D. cbn [cf_caps cf_root config_new].
    rewrite S, <- app_assoc. reflexivity.
  Qed.

  Lemma exit_ends h cuts rest o c s : session h = (o, Running c s) ->
    exists o', session (h ++ LMsg (MNotification NExit) cuts :: rest) = (o', Ended 0).
  Proof.
    intros Hs. destruct (session_cases _ _ _ Hs) as [X|[X|(early & r & rest0 & p & root & O & Hp & Hr)]]; try discriminate.
    destruct (session_opened early r p root Hp Hr) as (result & c0 & Hc). destruct (opened_app _ _ _ _ O) as (pre & -> & _ & Op).
    destruct (serve ho root_config_default (did_save_registration c0) rest0) as [o1 e1] eqn:S1.
    rewrite (Hc _ _ _ _ O S1) in Hs. destruct e1 as [s1| | | |]; try discriminate.
    assert (S2 : serve ho root_config_default (did_save_registration c0) (rest0 ++ LMsg (MNotification NExit) cuts :: rest) = (o1, Exited)).
    { unfold serve in *. destruct (start _ _) as [s0 o0]. destruct (run ho s0 rest0) as [o2 e2] eqn:Er. injection S1 as <- ->.
      rewrite (run_app ho _ _ _ _ _ Er). cbn [run step fst snd]. rewrite app_nil_r. reflexivity. }
    specialize (Op (rest0 ++ LMsg (MNotification NExit) cuts :: rest)). rewrite app_assoc in Op.
    rewrite (Hc _ _ _ _ Op S2). cbn [process_end]. eauto.
  Qed.

  (** The exit status is 0 if the process was in the main loop when it read
      the notification "exit", and 101 in every other case. *)
  Theorem C56_exit_status : forall ls out st,
    valid_labels ls -> session ls = (out, Ended st) ->
    (st = 0 \/ st = 101) /\
    (st = 0 <-> exists handled cuts rest out' c s,
       ls = handled ++ LMsg (MNotification NExit) cuts :: rest /\ session handled = (out', Running c s)).
  Proof.
    intros ls out st V H.
    destruct (session_cases _ _ _ H) as [X|[X|(early & r & rest & p & root & O & Hp & Hr)]]; [discriminate| |].
    - injection X as ->. split; [auto|]. split; [discriminate|].
      intros (h & cuts & rest & o & c & s & -> & Hs). destruct (exit_ends h cuts rest o c s Hs) as (o' & E). congruence.
    - destruct (session_opened early r p root Hp Hr) as (result & c0 & Hc). destruct (opened_app _ _ _ _ O) as (pre & -> & _ & Op).
      destruct (serve ho root_config_default (did_save_registration c0) rest) as [o1 e1] eqn:S1.
      pose proof (Hc _ _ _ _ O S1) as Hs. rewrite H in Hs. injection Hs as -> He.
      assert (V2 : valid_labels rest) by (unfold valid_labels in *; rewrite messages_app in V; apply Forall_app in V as [_ V]; exact V).
      destruct (serve_run ho _ _ _ _ _ S1) as (out' & Hr' & Ho). destruct (inv_start root_config_default (did_save_registration c0) default_buildable) as [Ii Q].
      destruct (run_spec ho _ _ _ _ Ii Q V2 Hr') as (hd & rs & s' & -> & Hd & _ & _ & _ & _ & _ & _ & _ & K).
      destruct e1; cbn [process_end] in He; try discriminate; injection He as ->; (split; [auto|]); split; try discriminate.
      + intros _. destruct K as (cuts & rs' & ->). exists (pre ++ hd), cuts, rs'. eexists _, c0, s'.
        split; [rewrite <- app_assoc; reflexivity|].
        assert (S2 : serve ho root_config_default (did_save_registration c0) hd = (snd (start root_config_default (did_save_registration c0)) ++ out', Alive s')).
        { unfold serve. destruct (start _ _) as [s0 o0]. cbn [fst snd] in *. rewrite Hd. reflexivity. }
        rewrite (Hc _ _ _ _ (Op hd) S2). reflexivity.
      + auto.
      + intros (h & cuts & rs2 & o & c & s & E & Hs). rewrite E in H. destruct (exit_ends h cuts rs2 o c s Hs) as (o' & E'). congruence.
      + intros (h & cuts & rs2 & o & c & s & E & Hs). rewrite E in H. destruct (exit_ends h cuts rs2 o c s Hs) as (o' & E'). congruence.
  Qed.

  (** A well-behaved client is served until it exits or the connection breaks. *)
  Lemma polite_valid docs pending ls : polite docs pending ls -> valid_labels ls.
  Proof.
    unfold valid_labels, messages. induction 1; cbn [flat_map label_messages app]; auto.
    all: try (constructor; [cbn; auto|assumption]).
    rewrite H. exact IHpolite.
  Qed.
  Theorem C56_well_behaved_clients_are_served : forall early r ls rest p root pending out e,
    opened early r ls rest -> decode_params (rq_params r) = Some p -> root_is cwd p root ->
    (pending = true <-> can_register_saves (ip_caps p)) -> polite (fun _ => None) pending rest -> N.of_nat (length rest) < u32_max ->
    session ls = (out, e) ->
    (exists c s, e = Running c s) \/ e = Ended 0 \/ e = Ended 101 /\ In LHangup rest.
  Proof.
    intros early r ls rest p root pending out e O Hp Hr Hb P L H.
    destruct (C56_handshake early r ls rest p root O Hp Hr) as (result & c & o1 & e1 & S & Hs & _ & _ & _ & _ & _ & _ & _ & D & _).
    rewrite H in Hs. injection Hs as _ ->.
    assert (pending = did_save_registration c).
    { destruct pending, (did_save_registration c); try reflexivity; [symmetry|]; [apply D, Hb|apply Hb, D]; reflexivity. }
    subst pending.
    pose proof (C32_well_behaved_clients_are_served ho root_config_default (did_save_registration c) rest o1 e1 default_buildable P L S) as W.
    destruct (serve_run ho _ _ _ _ _ S) as (out' & Hr' & _). destruct (inv_start root_config_default (did_save_registration c) default_buildable) as [Ii Q].
    destruct (run_spec ho _ _ _ _ Ii Q (polite_valid _ _ _ P) Hr') as (hd & rs & s' & -> & _ & _ & _ & _ & _ & _ & _ & _ & K).
    destruct e1; cbn [process_end]; try contradiction; eauto.
    right. right. split; [reflexivity|]. destruct K as (rs' & ->). apply in_app_iff. right. left. reflexivity.
  Qed.

  (** The server sends one request of its own, right after the handshake, to
      clients that can register for saves, and none to others. *)
  Definition sent_requests (out : list reply) : list (Z * text) :=
    flat_map (fun o => match o with RMessage (ORequest id m) => [(id, m)] | _ => [] end) out.
  Theorem C56_registration : forall early r ls rest p root out e,
    opened early r ls rest -> decode_params (rq_params r) = Some p -> root_is cwd p root ->
    valid_labels ls -> session ls = (out, e) ->
    (can_register_saves (ip_caps p) -> sent_requests out = [(0%Z, `"client/registerCapability")]) /\
    (~ can_register_saves (ip_caps p) -> sent_requests out = []).
  Proof.
    intros early r ls rest p root out e O Hp Hr V H.
    destruct (C56_handshake early r ls rest p root O Hp Hr) as (result & c & o1 & e1 & S & Hs & _ & _ & _ & _ & _ & _ & _ & D & _).
    rewrite H in Hs. injection Hs as -> _.
    destruct (opened_app _ _ _ _ O) as (pre & -> & _ & _).
    assert (V2 : valid_labels rest) by (unfold valid_labels in *; rewrite messages_app in V; apply Forall_app in V as [_ V]; exact V).
    destruct (serve_run ho _ _ _ _ _ S) as (out' & Hr' & Ho). destruct (inv_start root_config_default (did_save_registration c) default_buildable) as [Ii Q].
    destruct (run_spec ho _ _ _ _ Ii Q V2 Hr') as (hd & rs & s' & _ & _ & _ & _ & _ & _ & _ & _ & Nr & _).
    assert (E : sent_requests (map too_early early ++ RInitialize (rq_id r) result :: map RMessage o1) =
      sent_requests (map RMessage (snd (start root_config_default (did_save_registration c))))).
    { unfold sent_requests. rewrite flat_map_app.
      replace (flat_map _ (map too_early early)) with (@nil (Z * text)).
      2:{ clear. induction early as [|x l IH]; [reflexivity|]. cbn. exact IH. }
      cbn [app flat_map]. rewrite Ho, map_app, flat_map_app.
      replace (flat_map _ (map RMessage out')) with (@nil (Z * text)); [apply app_nil_r|].
      clear - Nr. induction out' as [|o l IH]; [reflexivity|]. cbn [map flat_map].
      rewrite <- IH by (intros id m Hin; apply (Nr id m); right; exact Hin).
      destruct o; try reflexivity. exfalso. eapply Nr. left. reflexivity. }
    rewrite E. split; intros K.
    - apply D in K. rewrite K. reflexivity.
    - destruct (did_save_registration c); [|reflexivity]. exfalso. apply K, D. reflexivity.
  Qed.

  (** If the parameters of initialize do not decode, the process ends without
      answering it. *)
  Theorem C56_bad_initialize_is_not_answered : forall early r ls rest,
    asked early r ls rest -> decode_params (rq_params r) = None ->
    session ls = (map too_early early, Ended 101).
  Proof.
    intros early r ls rest A H. unfold Session.session. rewrite (asked_start _ _ _ _ A), H. reflexivity.
  Qed.
End Sessions.

(** ** Samples *)
Definition sample_caps : client_caps :=
  {| cc_offset_encoding := Some [`"utf-16"; `"utf-8"];
     cc_text_document := Some (Some {| sc_dynamic_registration := Some true; sc_did_save := Some true |}); cc_workspace := None |}.
Definition sample_params : init_params :=
  {| ip_root := Some (DirFile [Name (`"w")]); ip_folders := Some [DirFile [Name (`"w"); Up; Name (`"a")]; DirOther (`"untitled:x"); DirFile [Name (`"w")]]; ip_caps := sample_caps |}.
Definition sample_decode (j : json) : option init_params := match j with JOther _ => Some sample_params | JNull => None end.
Definition req (id : Z) (m : string) (p : json) : request := {| rq_id := IdNum id; rq_method := `m; rq_params := p |}.
Definition sample_rest : list label :=
  [opens [`"w"; `"m.move"] 1 (`"module M { }") []; LWorker 0; LTasks [0%nat]; LMsg (MRequest (req 3 "shutdown" JNull)) [];
   LMsg (MNotification NExit) []; LHangup].
Definition sample_labels : list label :=
  LMsg (MRequest (req 1 "textDocument/hover" JNull)) [] :: LMsg (MRequest (req 2 "initialize" (JOther []))) [] ::
  LWorker 0 :: LMsg (MNotification (NOther (`"initialized"))) [] :: sample_rest.
Definition sample_early : list request := [req 1 "textDocument/hover" JNull].
Example sample_opened : opened sample_early (req 2 "initialize" (JOther [])) sample_labels sample_rest /\
  root_is (Some []) sample_params [Name (`"w")] /\ valid_labels sample_labels /\
  polite (fun _ => None) true sample_rest /\ can_register_saves sample_caps /\ knows_utf8 sample_caps.
Proof.
  split; [|split; [|split; [|split; [|split]]]].
  - eexists. split.
    + apply asked_early; [discriminate|]. apply asked_now. reflexivity.
    + apply confirms_silent; [exact I|]. apply confirms_now.
  - apply root_uri. reflexivity.
  - repeat constructor; vm_compute; auto.
  - unfold sample_rest, opens. apply polite_open; [repeat constructor; vm_compute; auto|].
    do 2 (apply polite_schedule; [reflexivity|]). apply polite_request. apply polite_exit. apply polite_schedule; [reflexivity|]. constructor.
  - eexists. split; [reflexivity|split; reflexivity].
  - eexists. split; [reflexivity|right; left; reflexivity].
Qed.
Example sample_session_runs :
  match session plain_order sample_decode (Some []) sample_fs (fun l => l) sample_labels with
  | (out, Ended st) => st = 0 /\ answered out = [IdNum 1; IdNum 2; IdNum 3] /\ sent_requests out = [(0%Z, `"client/registerCapability")]
  | _ => False
  end.
Proof. vm_compute. repeat split. Qed.
Example sample_bad : exists rest, asked [] (req 2 "initialize" JNull) [LMsg (MRequest (req 2 "initialize" JNull)) []] rest /\ sample_decode JNull = None.
Proof. exists []. split; [apply asked_now|]; reflexivity. Qed.

Print Assumptions C56_handshake.
Print Assumptions C56_no_service_without_handshake.
Print Assumptions C56_every_request_answered_once.
Print Assumptions C56_exit_status.
Print Assumptions C56_well_behaved_clients_are_served.
Print Assumptions C56_registration.
Print Assumptions C56_bad_initialize_is_not_answered.
