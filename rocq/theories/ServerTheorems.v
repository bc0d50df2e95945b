(** Whole runs of the server. *)
From Coq Require Import String Permutation.
From Verif Require Import Base BaseProofs Utf8 Utf8Proofs LineIndex LineEndings Vfs VfsSpec VfsProofs FileSet FileSetProofs
  DocChanges DocChangesSpec DocChangesProofs Sink Database DatabaseProofs Diagnostics Server ServerSpec ServerInv ServerRun.
Local Open Scope N_scope.

Lemma inv_start c did_save : config_ok c -> inv (fst (start c did_save)) /\ quiet (fst (start c did_save)).
Proof.
  intros Hc. assert (I : inv (state_new c)).
  { split; [|reflexivity]. unfold mid. cbn. split; auto; cbn; try (intros; contradiction); try constructor; try discriminate.
    - apply vfs_inv_default.
    - intros p []. }
  unfold start. destruct did_save; [|split; [exact I|reflexivity]]. split; [exact I|reflexivity].
Qed.

Ltac not_about := match goal with H : ~ about _ _ |- _ => exfalso; apply H; reflexivity end.

Section Runs.
  Context (ho : hash_order).

  Lemma messages_app a b : messages (a ++ b) = messages a ++ messages b.
  Proof. apply flat_map_app. Qed.
  Lemma answers_app a b down :
    answers down (a ++ b) = answers down a ++ answers (fold_left down_after a down) b.
  Proof.
    revert down; induction a as [|m a IH]; intros down; [reflexivity|].
    destruct m; cbn [app answers fold_left down_after]; rewrite IH; reflexivity.
  Qed.

  (** A run handles a prefix of the schedule and then, maybe, ends. *)
  Definition run_ok (s : state) (ls : list label) (out : list output) (e : ending) : Prop :=
    exists handled rest s',
      ls = handled ++ rest /\ run ho s handled = (out, Alive s') /\ inv s' /\ quiet s' /\
      responses out = answers (s_shutdown s) (messages handled) /\
      s_shutdown s' = fold_left down_after (messages handled) (s_shutdown s) /\
      s_roots s' = s_roots s /\
      (forall u v ds, In (OPublish u v ds) out -> exists comps, u = UFile comps /\ root_is_library (s_roots s) (Real comps) = false) /\
      (forall id m, ~ In (ORequest id m) out) /\
      match e with
      | Alive s2 => rest = [] /\ s2 = s'
      | Exited => exists cuts rest', rest = LMsg (MNotification NExit) cuts :: rest'
      | Failed => exists rest', rest = LHangup :: rest'
      | Died w => exists m cuts rest', rest = LMsg m cuts :: rest' /\ fatal s' m
      | NoFuel => False
      end.

  Lemma run_spec ls : forall s out e, inv s -> quiet s -> valid_labels ls -> run ho s ls = (out, e) -> run_ok s ls out e.
  Proof.
    induction ls as [|l ls IH]; intros s out e I Q V H; cbn [run] in H.
    - injection H as <- <-. exists [], [], s. refine (conj eq_refl (conj eq_refl (conj I (conj Q (conj eq_refl (conj eq_refl (conj eq_refl (conj _ (conj _ _))))))))); [intros u v ds []|intros id m' []|]; eauto.
    - unfold valid_labels, messages in V. cbn [flat_map] in V. apply Forall_app in V as [V1 V2].
      pose proof (step_spec ho s l I Q V1) as K. destruct (step ho s l) as [s1 o1| | |w|] eqn:Es.
      + destruct (run ho s1 ls) as [o2 e2] eqn:Er. injection H as <- <-.
        destruct (IH s1 o2 e2 (k_inv _ _ _ _ K) (k_quiet _ _ _ _ K) V2 Er) as [handled [rest [s' [-> [Hr [I' [Q' [Hresp [Hdown [Hroots [Hp [Hrq He]]]]]]]]]]]].
        exists (l :: handled), rest, s'. split; [reflexivity|].
        split; [cbn [run]; rewrite Es, Hr; reflexivity|]. split; [auto|]. split; [auto|].
        assert (Hd : s_shutdown s1 = fold_left down_after (label_messages l) (s_shutdown s)).
        { rewrite (k_shutdown _ _ _ _ K). destruct l; reflexivity. }
        split; [|split; [|split; [|split; [|split]]]].
        * rewrite responses_app, (k_responses _ _ _ _ K), Hresp. unfold messages. cbn [flat_map]. rewrite answers_app, Hd. reflexivity.
        * rewrite Hdown, Hd. unfold messages. cbn [flat_map]. rewrite fold_left_app. reflexivity.
        * rewrite Hroots. apply K.
        * intros u v ds Hin. apply in_app_iff in Hin as [Hin|Hin]; [apply (k_publishes _ _ _ _ K u v ds Hin)|].
          apply Hp in Hin. rewrite (k_roots _ _ _ _ K) in Hin. exact Hin.
        * intros id m Hin. apply in_app_iff in Hin as [Hin|Hin]; [eapply (k_requests _ _ _ _ K); eauto|eapply Hrq; eauto].
        * exact He.
      + injection H as <- <-. destruct K as [cuts ->].
        exists [], (LMsg (MNotification NExit) cuts :: ls), s. refine (conj eq_refl (conj eq_refl (conj I (conj Q (conj eq_refl (conj eq_refl (conj eq_refl (conj _ (conj _ _))))))))); [intros u v ds []|intros id m' []|]; eauto.
      + injection H as <- <-. subst l. exists [], (LHangup :: ls), s. refine (conj eq_refl (conj eq_refl (conj I (conj Q (conj eq_refl (conj eq_refl (conj eq_refl (conj _ (conj _ _))))))))); [intros u v ds []|intros id m' []|]; eauto.
      + injection H as <- <-. destruct K as [m [cuts [-> Hf]]].
        exists [], (LMsg m cuts :: ls), s. refine (conj eq_refl (conj eq_refl (conj I (conj Q (conj eq_refl (conj eq_refl (conj eq_refl (conj _ (conj _ _))))))))); [intros u v ds []|intros id m' []|]; eauto.
      + contradiction.
  Qed.

  Lemma run_app ls1 : forall s ls2 out s1, run ho s ls1 = (out, Alive s1) ->
    run ho s (ls1 ++ ls2) = (out ++ fst (run ho s1 ls2), snd (run ho s1 ls2)).
  Proof.
    induction ls1 as [|l ls1 IH]; intros s ls2 out s1; cbn [run app].
    - intros H; injection H as <- <-. destruct (run ho s ls2); reflexivity.
    - destruct (step ho s l) as [s2 o2| | |w|]; try discriminate.
      destruct (run ho s2 ls1) as [o3 e3] eqn:E. intros H; injection H as <- ->.
      rewrite (IH _ ls2 _ _ E). destruct (run ho s1 ls2). cbn [fst snd]. rewrite app_assoc. reflexivity.
  Qed.

  (** ** Documents along a run *)
  Definition shown (d : option (Z * text)) : option (Z * option bytes) :=
    option_map (fun p => (fst p, Some (encode (snd p)))) d.

  Lemma edited_applied t chs t' : edited t chs t' -> apply_document_changes t chs = Ok t'.
  Proof.
    intros [Hb [Hc|[Ho Ha]]]; [apply client_edits_applied; auto|]. rewrite apply_changes_fresh; auto.
  Qed.
  Lemma encode_inj a b : scalars a -> encode a = encode b -> scalars b -> a = b.
  Proof. intros Ha H Hb. pose proof (decode_encode a Ha). rewrite H, decode_encode in H0 by auto. congruence. Qed.

  Lemma follows_step comps d m ms d' s s' :
    follows comps d (m :: ms) d' -> doc s comps = shown d ->
    (forall v t, d = Some (v, t) -> scalars t) -> valid_message m ->
    doc_step comps m (doc s comps) (doc s' comps) ->
    exists d1, follows comps d1 ms d' /\ doc s' comps = shown d1 /\ (forall v t, d1 = Some (v, t) -> scalars t).
  Proof.
    intros Hf Hd Hs Hv Hstep. inversion Hf; subst.
    - inversion Hstep; subst; try not_about.
      exists (Some (v, t)). split; [auto|]. split; [reflexivity|]. intros v0 t0 E; injection E as <- <-. exact Hv.
    - rewrite Hd in Hstep. cbn [shown option_map fst snd] in Hstep. inversion Hstep; subst; try not_about.
      assert (t0 = t) by (eapply encode_inj; eauto). subst t0.
      assert (t'0 = t') by (apply edited_applied in H2; congruence). subst t'0.
      exists (Some (v', t')). split; [auto|]. split; [reflexivity|].
      intros v0 t0 E; injection E as <- <-. eapply apply_changes_scalars; eauto.
    - rewrite Hd in Hstep. cbn [shown option_map] in Hstep. inversion Hstep; subst; try not_about.
      exists None. split; [auto|]. split; [reflexivity|discriminate].
    - inversion Hstep; subst; try not_about.
      exists None. split; [auto|]. split; [reflexivity|discriminate].
    - assert (doc s' comps = doc s comps).
      { inversion Hstep; subst; auto; match goal with H : ~ about _ _ |- _ => exfalso; apply H; cbn; auto end. }
      exists d. split; [auto|]. split; [congruence|auto].
  Qed.

  Lemma run_follows ls : forall s out s' comps d d', inv s -> quiet s -> valid_labels ls ->
    run ho s ls = (out, Alive s') -> follows comps d (messages ls) d' -> doc s comps = shown d ->
    (forall v t, d = Some (v, t) -> scalars t) -> doc s' comps = shown d'.
  Proof.
    induction ls as [|l ls IH]; intros s out s' comps d d' I Q V H F Hd Hs; cbn [run] in H.
    - injection H as <- <-. inversion F; subst; auto.
    - unfold valid_labels, messages in V. cbn [flat_map] in V. apply Forall_app in V as [V1 V2].
      pose proof (step_spec ho s l I Q V1) as K. destruct (step ho s l) as [s1 o1| | |w|] eqn:Es; try discriminate.
      destruct (run ho s1 ls) as [o2 e2] eqn:Er. injection H as <- ->.
      pose proof (k_doc _ _ _ _ K comps) as Hk. unfold messages in F. cbn [flat_map] in F.
      destruct l as [m cuts|picks|i|]; cbn [label_doc label_messages app] in *.
      + apply Forall_inv in V1. destruct (follows_step comps d m _ d' s s1 F Hd Hs V1 Hk) as [d1 [F1 [Hd1 Hs1]]].
        eapply (IH s1); eauto; apply K.
      + eapply (IH s1); eauto; try apply K. congruence.
      + eapply (IH s1); eauto; try apply K. congruence.
      + eapply (IH s1); eauto; try apply K. congruence.
  Qed.

  (** ** Well-behaved clients *)
  Definition tracks (docs : list text -> option text) (s : state) : Prop :=
    forall comps, match docs comps with
                  | Some t => scalars t /\ exists v, doc s comps = Some (v, Some (encode t))
                  | None => doc s comps = None
                  end.
  Lemma put_same docs c d : put docs c d c = d.
  Proof. unfold put. rewrite (proj2 (texts_eqb_eq c c) eq_refl). reflexivity. Qed.
  Lemma put_other docs c d c' : c' <> c -> put docs c d c' = docs c'.
  Proof. intros H. unfold put. destruct (texts_eqb c' c) eqn:E; auto. apply texts_eqb_eq in E. contradiction. Qed.

  Lemma polite_not_fatal s docs pending m cuts ls :
    inv s -> tracks docs s -> (pending = true -> alookup id_eqb (IdNum 0) (s_outgoing s) <> None) ->
    N.of_nat (length (v_interner (s_vfs s))) < u32_max ->
    polite docs pending (LMsg m cuts :: ls) -> ~ fatal s m.
  Proof.
    intros I T P L H F.
    assert (Hnf : too_many_files s -> False) by (unfold too_many_files; intros; lia).
    destruct F as [| | | | |id Hid|p path ver t Hp Hd Hc Hs Ha|m Hm]; [inversion H; subst; discriminate..| | |auto].
    - inversion H; subst; try discriminate. apply P; auto.
    - inversion H as [| | |? ? comps v t1 chs t1' ? ? Hdocs Hsc Hed| | | | | | |]; subst; try discriminate.
      cbn [cp_url vfs_path cp_changes] in *. injection Hp as <-.
      pose proof (T comps) as Tc. rewrite Hdocs in Tc. destruct Tc as [Hs1 [v' Hdoc]]. unfold doc in Hdoc.
      rewrite Hd in Hdoc. injection Hdoc as -> Hc2. rewrite Hc in Hc2. injection Hc2 as Hc2.
      apply encode_inj in Hc2; auto. subst t1. apply edited_applied in Hed. eapply Ha; eauto.
  Qed.

  Lemma tracks_step docs s s' m d1 :
    tracks docs s -> (forall comps, doc_step comps m (doc s comps) (doc s' comps)) ->
    (forall comps, ~ about comps m -> d1 comps = docs comps) ->
    (forall comps, about comps m ->
       match d1 comps with
       | Some t => scalars t /\ exists v, doc s' comps = Some (v, Some (encode t))
       | None => doc s' comps = None
       end) ->
    (forall comps, about comps m \/ ~ about comps m) ->
    tracks d1 s'.
  Proof.
    intros T Hd Hn Ha Hdec comps. destruct (Hdec comps) as [A|A]; [apply Ha; auto|].
    rewrite (Hn comps A). pose proof (T comps) as Tc. pose proof (Hd comps) as D.
    assert (E : doc s' comps = doc s comps).
    { destruct m as [r|n|id]; [| |]; try (inversion D; reflexivity).
      destruct n as [|[i|]|[[]|]|[p|]|[p|]|[u|]|mt]; inversion D; subst; auto; exfalso; apply A; cbn; auto. }
    rewrite E. exact Tc.
  Qed.
  Lemma about_dec comps m : about comps m \/ ~ about comps m.
  Proof.
    assert (U : forall u, u = UFile comps \/ u <> UFile comps).
    { intros [c|x]; [|right; discriminate]. destruct (texts_eqb c comps) eqn:E.
      - apply texts_eqb_eq in E as ->. auto.
      - right. intros H. injection H as ->. rewrite (proj2 (texts_eqb_eq comps comps) eq_refl) in E. discriminate. }
    destruct m as [r|n|id]; cbn; auto. destruct n as [|[i|]|[[]|]|[p|]|[p|]|[u|]|mt]; cbn; auto.
  Qed.

  Lemma polite_valid docs pending ls : polite docs pending ls -> valid_labels ls.
  Proof.
    unfold valid_labels. induction 1; cbn [messages flat_map label_messages app]; try (constructor; auto; exact I; fail).
    rewrite H. exact IHpolite.
  Qed.

  Lemma tracks_same docs s s' : tracks docs s -> (forall comps, doc s' comps = doc s comps) -> tracks docs s'.
  Proof. intros T H comps. rewrite H. apply T. Qed.

  Lemma polite_runs ls : forall docs pending s, inv s -> quiet s -> tracks docs s ->
    (pending = true -> alookup id_eqb (IdNum 0) (s_outgoing s) <> None) ->
    N.of_nat (length (v_interner (s_vfs s)) + length ls) < u32_max ->
    polite docs pending ls ->
    match snd (run ho s ls) with Alive _ | Exited | Failed => True | Died _ | NoFuel => False end.
  Proof.
    induction ls as [|l ls IH]; intros docs pending s I Q T P L H; cbn [run]; [exact Logic.I|].
    pose proof (polite_valid _ _ _ H) as V. unfold valid_labels, messages in V. cbn [flat_map] in V. apply Forall_app in V as [V1 V2].
    pose proof (step_spec ho s l I Q V1) as K. cbn [length] in L.
    destruct (step ho s l) as [s1 o1| | |w|] eqn:Es; try exact Logic.I; [| |exact K].
    - assert (G : exists docs1 pending1, polite docs1 pending1 ls /\ tracks docs1 s1 /\
                    (pending1 = true -> alookup id_eqb (IdNum 0) (s_outgoing s1) <> None)).
      { pose proof (k_doc _ _ _ _ K) as Kd. pose proof (k_outgoing _ _ _ _ K) as Ko.
        inversion H as [|? ? ? ? ? Hp|? ? comps v t ? ? Hsc Hp|? ? comps v t chs t' ? ? Hdocs Hsc Hed Hp|? ? comps ? ? Hp
                       |? ? ? ? ? Hp|? ? ? ? Hp|? ? ? ? ? Hp|? ? ? ? Hp|? ? ? Hp|? ? ? ? Hl Hp]; subst; cbn [label_doc label_outgoing] in *;
          try (exists docs, pending; split; [assumption|]; split; [|rewrite Ko; exact P];
               apply (tracks_step docs s s1 _ docs T Kd); [auto|intros ? []|intros; apply about_dec]; fail).
        - exists (put docs comps (Some t)), pending. split; [assumption|]. split; [|rewrite Ko; exact P].
          apply (tracks_step docs s s1 _ (put docs comps (Some t)) T Kd); [| |intros; apply about_dec].
          + cbn. intros c Hc. apply put_other. congruence.
          + cbn. intros c Hc. injection Hc as <-. rewrite put_same. split; auto.
            pose proof (Kd comps) as D. inversion D; subst; [not_about|]. eauto.
        - exists (put docs comps (Some t')), pending. split; [assumption|]. split; [|rewrite Ko; exact P].
          apply (tracks_step docs s s1 _ (put docs comps (Some t')) T Kd); [| |intros; apply about_dec].
          + cbn. intros c Hc. apply put_other. congruence.
          + cbn. intros c Hc. injection Hc as <-. rewrite put_same.
            pose proof (T comps) as Tc. rewrite Hdocs in Tc. destruct Tc as [Hs [v0 Hdoc]].
            pose proof (edited_applied _ _ _ Hed) as Ha.
            split; [eapply apply_changes_scalars; eauto|].
            pose proof (Kd comps) as D. rewrite Hdoc in D. inversion D; subst; [not_about|].
            assert (t0 = t) by (eapply encode_inj; eauto). subst t0. exists v. congruence.
        - exists (put docs comps None), pending. split; [assumption|]. split; [|rewrite Ko; exact P].
          apply (tracks_step docs s s1 _ (put docs comps None) T Kd); [| |intros; apply about_dec].
          + cbn. intros c Hc. apply put_other. congruence.
          + cbn. intros c Hc. injection Hc as <-. rewrite put_same.
            pose proof (Kd comps) as D. inversion D; subst; [not_about|]. auto.
        - exists docs, false. split; [assumption|]. split; [|discriminate].
          apply (tracks_step docs s s1 _ docs T Kd); [auto|intros ? []|intros; apply about_dec].
        - exists docs, pending. split; [assumption|]. destruct l; [discriminate| | |];
          (split; [|rewrite Ko; exact P]; apply (tracks_same docs s s1 T); intros comps; symmetry; apply Kd). }
      destruct G as [docs1 [pending1 [H1 [T1 P1]]]]. specialize (IH docs1 pending1 s1 (k_inv _ _ _ _ K) (k_quiet _ _ _ _ K) T1 P1).
      destruct (run ho s1 ls) as [o2 e2]. cbn [snd] in *. apply IH; [|exact H1].
      pose proof (k_grows _ _ _ _ K) as Hg. unfold grows in Hg. lia.
    - destruct K as [m [cuts [-> Hf]]]. eapply polite_not_fatal; eauto. lia.
  Qed.

  (** ** Whole sessions *)
  Lemma serve_run c did_save ls out e : serve ho c did_save ls = (out, e) ->
    exists out', run ho (fst (start c did_save)) ls = (out', e) /\ out = snd (start c did_save) ++ out'.
  Proof.
    unfold serve. destruct (start c did_save) as [s o]. destruct (run ho s ls) as [o' e'] eqn:E.
    intros H; injection H as <- <-. eauto.
  Qed.
  Lemma start_responses c did_save : responses (snd (start c did_save)) = [].
  Proof. destruct did_save; reflexivity. Qed.
  Lemma start_shutdown c did_save : s_shutdown (fst (start c did_save)) = false.
  Proof. destruct did_save; reflexivity. Qed.
  Lemma start_roots c did_save : s_roots (fst (start c did_save)) = c.
  Proof. destruct did_save; reflexivity. Qed.
  Lemma start_doc c did_save comps : doc (fst (start c did_save)) comps = None.
  Proof. destruct did_save; reflexivity. Qed.

  Lemma alive_labels ls : forall s out s', run ho s ls = (out, Alive s') ->
    Forall (fun l => l <> LHangup /\ forall m cuts, l = LMsg m cuts -> is_exit m = false) ls.
  Proof.
    induction ls as [|l ls IH]; intros s out s' H; [constructor|]. cbn [run] in H.
    destruct (step ho s l) as [s1 o1| | |w|] eqn:E; try discriminate.
    destruct (run ho s1 ls) as [o2 e2] eqn:Er. injection H as <- ->.
    constructor; [|eapply IH; eauto]. split.
    - intros ->. discriminate.
    - intros m cuts ->. destruct m as [|n|]; [reflexivity| |reflexivity]. destruct n; try reflexivity. discriminate.
  Qed.

  Lemma contents_holds s comps v t : inv s -> doc s comps = Some (v, Some (encode t)) -> holds s comps v t.
  Proof.
    intros I. unfold doc, holds. destruct (alookup vpath_eqb (Real comps) (s_docs s)) as [ver|] eqn:E; [|discriminate].
    intros H; injection H as -> Hc. split; [reflexivity|].
    destruct (open_contents s (Real comps) v I E) as (cs & t' & id & _ & _ & Hc' & Hid & Hct).
    exists id. split; [exact Hid|]. congruence.
  Qed.
  Lemma holds_contents s comps v t : inv s -> holds s comps v t -> doc s comps = Some (v, Some (encode t)).
  Proof.
    intros I [E [id [Hid Hct]]]. destruct (open_contents s (Real comps) v I E) as (cs & t' & id' & _ & _ & Hc' & Hid' & Hct').
    unfold doc. rewrite E, Hc'. congruence.
  Qed.

  Lemma polite_follows docs pending ls : polite docs pending ls ->
    forall comps d, option_map snd d = docs comps -> exists d', follows comps d (messages ls) d'.
  Proof.
    induction 1; intros c d Hd; cbn [messages flat_map label_messages app]; try fold (messages ls).
    - exists d. constructor.
    - destruct (IHpolite c d Hd) as [d' F]. exists d'. apply follows_other; auto.
    - destruct (texts_eqb c comps) eqn:E.
      + apply texts_eqb_eq in E as ->. destruct (IHpolite comps (Some (v, t))) as [d' F]; [rewrite put_same; reflexivity|].
        exists d'. constructor. exact F.
      + assert (c <> comps) as Hne by (intros ->; rewrite (proj2 (texts_eqb_eq comps comps) eq_refl) in E; discriminate).
        destruct (IHpolite c d) as [d' F]; [rewrite put_other; auto|]. exists d'. apply follows_other; auto. cbn. congruence.
    - destruct (texts_eqb c comps) eqn:E.
      + apply texts_eqb_eq in E as ->. destruct (IHpolite comps (Some (v, t'))) as [d' F]; [rewrite put_same; reflexivity|].
        exists d'. rewrite H in Hd. destruct d as [[v0 t0]|]; [|discriminate]. injection Hd as ->. econstructor; eauto.
      + assert (c <> comps) as Hne by (intros ->; rewrite (proj2 (texts_eqb_eq comps comps) eq_refl) in E; discriminate).
        destruct (IHpolite c d) as [d' F]; [rewrite put_other; auto|]. exists d'. apply follows_other; auto. cbn. congruence.
    - destruct (texts_eqb c comps) eqn:E.
      + apply texts_eqb_eq in E as ->. destruct (IHpolite comps None) as [d' F]; [rewrite put_same; reflexivity|].
        exists d'. constructor. exact F.
      + assert (c <> comps) as Hne by (intros ->; rewrite (proj2 (texts_eqb_eq comps comps) eq_refl) in E; discriminate).
        destruct (IHpolite c d) as [d' F]; [rewrite put_other; auto|]. exists d'. apply follows_other; auto. cbn. congruence.
    - destruct (IHpolite c d Hd) as [d' F]. exists d'. apply follows_other; auto.
    - destruct (IHpolite c d Hd) as [d' F]. exists d'. apply follows_other; auto.
    - destruct (IHpolite c d Hd) as [d' F]. exists d'. apply follows_other; auto.
    - destruct (IHpolite c d Hd) as [d' F]. exists d'. apply follows_other; auto.
    - destruct (IHpolite c d Hd) as [d' F]. exists d'. apply follows_other; auto.
    - rewrite H. destruct (IHpolite c d Hd) as [d' F]. eauto.
  Qed.
End Runs.
