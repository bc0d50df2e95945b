(** The texts behind the published diagnostics, in any schedule. *)
From Coq Require Import String Permutation Sorted.
From Verif Require Import Base BaseProofs Utf8 Utf8Proofs LineIndex LineEndings LineEndingsProofs Vfs VfsSpec VfsProofs FileSet
  DocChanges GreenSpec Sink Database DatabaseProofs Diagnostics Server ServerSpec ServerInv ServerRun ServerTheorems DiagSpec DiagProofs
  DiagRun PastSpec.
Local Open Scope N_scope.

(** ** Sublists *)
Inductive sub {A} : list A -> list A -> Prop :=
| sub_nil : sub [] []
| sub_keep x a b : sub a b -> sub (x :: a) (x :: b)
| sub_drop x a b : sub a b -> sub a (x :: b).
Lemma sub_refl {A} (l : list A) : sub l l. Proof. induction l; constructor; auto. Qed.
Lemma sub_none {A} (l : list A) : sub [] l. Proof. induction l; constructor; auto. Qed.
Lemma sub_app {A} (a b c d : list A) : sub a b -> sub c d -> sub (a ++ c) (b ++ d).
Proof. intros H H'. induction H; cbn [app]; [exact H'|constructor; auto|constructor; auto]. Qed.
Lemma sub_Forall {A} (P : A -> Prop) a b : sub a b -> Forall P b -> Forall P a.
Proof. induction 1; intros F; inversion F; subst; auto. Qed.
Lemma sub_sorted a b : sub a b -> StronglySorted le b -> StronglySorted le a.
Proof.
  induction 1; intros S; inversion S; subst; auto. constructor; [auto|]. eapply sub_Forall; eauto.
Qed.
Lemma sorted_snoc l (n : nat) : StronglySorted le l -> Forall (fun k => (k <= n)%nat) l -> StronglySorted le (l ++ [n]).
Proof.
  induction 1 as [|k l S IH F]; intros H; cbn [app]; [repeat constructor|]. inversion H; subst.
  constructor; [auto|]. apply Forall_app. split; [exact F|]. constructor; [assumption|constructor].
Qed.

(** ** Moments *)
Definition told (hist : list state) (k : nat) (comps : list text) (ds : list lsp_diag) : Prop :=
  exists s v t, nth_error hist k = Some s /\ holds s comps v t /\ scalars t /\ diagnoses Utf8 (crlf_to_lf t) ds.
Definition task_at (hist : list state) (v : vfs) (k : nat) (t : task) : Prop :=
  (k < length hist)%nat /\
  match t with
  | TDiagnostics l => forall id ds, In (id, ds) l -> exists comps, known v id (Real comps) /\ told hist k comps ds
  | TResponse _ _ => True
  end.
Definition job_at (hist : list state) (v : vfs) (k : nat) (j : job) : Prop :=
  (k < length hist)%nat /\
  forall id, In id (jb_files j) -> exists comps s ver t, known v id (Real comps) /\
    nth_error hist k = Some s /\ holds s comps ver t /\ scalars t /\ file_text (jb_db j) id = Ok (crlf_to_lf t).
Definition entries_at (hist : list state) (v : vfs) (ke : N -> nat) (c : collection) : Prop :=
  forall id ds, alookup N.eqb id (dc_native c) = Some ds -> exists comps, known v id (Real comps) /\ told hist (ke id) comps ds.

Definition extends (v v' : vfs) : Prop := forall id p, known v id p -> known v' id p.
Lemma nth_more {A} (l : list A) k x y : nth_error l k = Some x -> nth_error (l ++ [y]) k = Some x.
Proof. intros H. rewrite nth_error_app1; [exact H|]. apply nth_error_Some. congruence. Qed.
Lemma told_more hist s k comps ds : told hist k comps ds -> told (hist ++ [s]) k comps ds.
Proof. intros (s0 & v & t & H & R). exists s0, v, t. split; [apply nth_more; exact H|exact R]. Qed.
Lemma task_more hist s v v' k t : extends v v' -> task_at hist v k t -> task_at (hist ++ [s]) v' k t.
Proof.
  intros E [L H]. split; [rewrite app_length; cbn; lia|]. destruct t as [i b|l]; [exact I|]. intros id ds Hin.
  destruct (H id ds Hin) as (comps & K & T). exists comps. split; [apply E; exact K|apply told_more; exact T].
Qed.
Lemma job_more hist s v v' k j : extends v v' -> job_at hist v k j -> job_at (hist ++ [s]) v' k j.
Proof.
  intros E [L H]. split; [rewrite app_length; cbn; lia|]. intros id Hin.
  destruct (H id Hin) as (comps & s0 & ver & t & K & N & R). exists comps, s0, ver, t. split; [apply E; exact K|].
  split; [apply nth_more; exact N|exact R].
Qed.
Lemma entries_more hist s v v' ke c : extends v v' -> entries_at hist v ke c -> entries_at (hist ++ [s]) v' ke c.
Proof. intros E H id ds L. destruct (H id ds L) as (comps & K & T). exists comps. split; [apply E; exact K|apply told_more; exact T]. Qed.
Lemma Forall2_mono {A B} (P Q : A -> B -> Prop) l m : (forall a b, P a b -> Q a b) -> Forall2 P l m -> Forall2 Q l m.
Proof. intros H. induction 1; constructor; auto. Qed.
Lemma Forall2_left {A B} (P : A -> B -> Prop) (Q : A -> Prop) l m : (forall a b, P a b -> Q a) -> Forall2 P l m -> Forall Q l.
Proof. intros H. induction 1; constructor; eauto. Qed.

(** ** Jobs and their results *)
Lemma published_text e db id t ds : file_text db id = Ok t -> publish_diagnostics e db id = Ok ds -> diagnoses Utf8 t ds.
Proof.
  intros T H. assert (A : alookup N.eqb id e <> None /\ tlen t < u32_bound).
  { unfold publish_diagnostics in H. destruct (alookup N.eqb id e); cbn [index bind] in H; [|discriminate]. split; [discriminate|].
    rewrite T in H. cbn [bind] in H. unfold li_new in H. destruct (N.ltb_spec (tlen t) u32_bound); [assumption|discriminate]. }
  pose proof (publish_diagnostics_spec e db id t (proj1 A) T (proj2 A)) as P.
  destruct (source_file_parse t) as [[g errs]|w|] eqn:E; [|rewrite P in H; discriminate|destruct P].
  destruct P as (ds' & P & F). rewrite P in H. injection H as ->. exists g, errs. auto.
Qed.
Lemma job_run_at hist v k e j cut : job_at hist v k j ->
  exists ks, sub ks [k] /\ Forall2 (task_at hist v) ks (job_run e j cut).
Proof.
  intros [L H]. unfold job_run. destruct (job_files e (jb_db j) (jb_files j) cut) as [l| |] eqn:E; [|exists []; split; [apply sub_none|constructor]..].
  exists [k]. split; [apply sub_refl|]. constructor; [|constructor]. split; [exact L|]. intros id ds Hin.
  pose proof (job_files_In _ _ _ _ _ E id ds Hin) as P.
  assert (F : In id (jb_files j)).
  { clear -E Hin. revert cut l E Hin. generalize (jb_files j). induction l as [|i files IH]; intros cut l E Hin; cbn [job_files] in E.
    - destruct cut; injection E as <-; destruct Hin.
    - destruct cut as [|cut]; [injection E as <-; destruct Hin|]. destruct (publish_diagnostics _ _ i); cbn [bind] in E; try discriminate.
      destruct (job_files _ _ _ cut) as [r| |] eqn:E2; cbn [bind] in E; try discriminate. injection E as <-.
      destruct Hin as [X|X]; [injection X as -> _; left; reflexivity|right; eapply IH; eauto]. }
  destruct (H id F) as (comps & s & ver & t & K & Nth & Hh & Hs & Ft). exists comps. split; [exact K|].
  exists s, ver, t. split; [exact Nth|]. split; [exact Hh|]. split; [exact Hs|]. eapply published_text; eauto.
Qed.
Lemma jobs_cut_at hist v e jobs : forall kj cuts, Forall2 (job_at hist v) kj jobs ->
  exists ks, sub ks kj /\ Forall2 (task_at hist v) ks (jobs_cut e jobs cuts).
Proof.
  induction jobs as [|j jobs IH]; intros kj cuts F; inversion F as [|k ? kj' ? J F']; subst; cbn [jobs_cut]; [exists []; split; constructor|].
  destruct (IH kj' (tl cuts) F') as (ks & S & G).
  destruct (job_run_at hist v k e j (match cuts with [] => length (jb_files j) | c :: _ => c end) J) as (ks0 & S0 & G0).
  exists (ks0 ++ ks). split; [exact (sub_app _ _ _ _ S0 S)|]. apply Forall2_app; assumption.
Qed.

(** ** Picking *)
Lemma remove_nth_at {A B} (P : A -> B -> Prop) l : forall i x r ks, remove_nth i l = Some (x, r) -> Forall2 P ks l ->
  exists k kr, P k x /\ Forall2 P kr r /\ (i = 0%nat -> ks = k :: kr).
Proof.
  induction l as [|y l IH]; intros i x r ks H F; [destruct i; discriminate|]. inversion F as [|k ? ks' ? H1 F']; subst.
  destruct i as [|i]; cbn [remove_nth] in H.
  - injection H as <- <-. eauto.
  - destruct (remove_nth i l) as [[z r']|] eqn:E; [|discriminate]. injection H as <- <-.
    destruct (IH i z r' ks' E F') as (k2 & kr & A1 & A2 & _). exists k2, (k :: kr). split; [exact A1|]. split; [constructor; assumption|discriminate].
Qed.
Lemma pick_tasks_at {A} (P : A -> task -> Prop) picks : forall bag ts bag' ks, pick_tasks picks bag = (ts, bag') -> Forall2 P ks bag ->
  exists kt kb, Forall2 P kt ts /\ Forall2 P kb bag' /\ (Forall (fun i => i = 0%nat) picks -> ks = kt ++ kb).
Proof.
  induction picks as [|i picks IH]; intros bag ts bag' ks H F; cbn [pick_tasks] in H.
  - injection H as <- <-. exists [], ks. split; [constructor|]. auto.
  - destruct (remove_nth i bag) as [[t bag1]|] eqn:E.
    + destruct (pick_tasks picks bag1) as [ts1 bag2] eqn:E2. injection H as <- <-.
      destruct (remove_nth_at P bag i t bag1 ks E F) as (k & kr & A1 & A2 & A3). destruct (IH _ _ _ _ E2 A2) as (kt & kb & B1 & B2 & B3).
      exists (k :: kt), kb. split; [constructor; assumption|]. split; [exact B2|]. intros Z. inversion Z; subst.
      rewrite A3, B3; auto.
    + destruct (IH _ _ _ _ H F) as (kt & kb & B1 & B2 & B3). exists kt, kb. split; [exact B1|]. split; [exact B2|].
      intros Z. inversion Z; subst. auto.
Qed.

(** ** Absorbing results *)
Lemma set_all_at hist v k l : forall c ke, nmade c -> Forall (fun p => Forall made (snd p)) l ->
  (forall id ds, In (id, ds) l -> exists comps, known v id (Real comps) /\ told hist k comps ds) ->
  entries_at hist v ke c ->
  entries_at hist v (fun id => if existsb (N.eqb id) (map fst l) then k else ke id) (set_all c l).
Proof.
  induction l as [|[i d] l IH]; intros c ke Hn Hm Ht He; cbn [set_all fold_left map fst existsb].
  - exact He.
  - inversion Hm as [|? ? Hd Hm']; subst. cbn [fst snd] in *. destruct (set_native_absorbed c i d Hn Hd) as (A & B & C).
    assert (He' : entries_at hist v (fun id => if N.eqb id i then k else ke id) (set_native_diagnostics c i d)).
    { intros id ds L. destruct (N.eqb_spec id i) as [->|Hne].
      - rewrite B in L. injection L as <-. apply Ht. left. reflexivity.
      - rewrite (C id Hne) in L. apply He. exact L. }
    pose proof (IH _ _ (ab_made _ _ A) Hm' (fun id ds H => Ht id ds (or_intror H)) He') as R.
    fold (set_all (set_native_diagnostics c i d) l). intros id ds L. destruct (R id ds L) as (comps & K & T). exists comps. split; [exact K|].
    cbv beta in T. destruct (N.eqb id i); cbn [orb]; [|exact T]. destruct (existsb _ _); exact T.
Qed.
Lemma absorb_at hist v ts : forall kt c ke, nmade c -> Forall tmade ts -> Forall2 (task_at hist v) kt ts -> entries_at hist v ke c ->
  exists ke', entries_at hist v ke' (absorb c ts) /\
    (forall rest, StronglySorted le (kt ++ rest) -> (forall id, Forall (le (ke id)) (kt ++ rest)) ->
      forall id, (ke id <= ke' id)%nat /\ Forall (le (ke' id)) rest) /\
    (forall n, (forall id, (ke id <= n)%nat) -> Forall (fun k => (k <= n)%nat) kt -> forall id, (ke' id <= n)%nat).
Proof.
  induction ts as [|t ts IH]; intros kt c ke Hn Hm F He; inversion F as [|k ? kt' ? [_ T] F']; subst; cbn [absorb fold_left].
  - exists ke. split; [exact He|]. split; [|auto]. intros rest _ H id. split; [lia|]. apply (H id).
  - inversion Hm as [|? ? Hd Hm']; subst. fold (absorb (match t with TDiagnostics l => set_all c l | TResponse _ _ => c end) ts).
    destruct t as [i b|l].
    + destruct (IH kt' c ke Hn Hm' F' He) as (ke' & R & S & B). exists ke'. split; [exact R|].
      split; [|intros n B1 B2; apply B; [exact B1|inversion B2; assumption]]. intros rest S1 S2. apply S.
      * cbn [app] in S1. inversion S1; assumption.
      * intros id. specialize (S2 id). cbn [app] in S2. inversion S2; assumption.
    + cbn [tmade] in Hd. destruct (set_all_absorbed l c Hn Hd) as (A & _).
      destruct (IH kt' _ _ (ab_made _ _ A) Hm' F' (set_all_at hist v k l c ke Hn Hd T He)) as (ke' & R & S & B). exists ke'. split; [exact R|].
      split; [|intros n B1 B2; inversion B2; subst; apply B; [|assumption]; intros i; destruct (existsb _ _); auto].
      intros rest S1 S2 id. cbn [app] in S1. inversion S1 as [|? ? S1' S1k]; subst.
      assert (L : (ke id <= k)%nat) by (specialize (S2 id); cbn [app] in S2; inversion S2; assumption).
      assert (S3 : forall i, Forall (le (if existsb (N.eqb i) (map fst l) then k else ke i)) (kt' ++ rest)).
      { intros i. destruct (existsb _ _); [exact S1k|]. specialize (S2 i). cbn [app] in S2. inversion S2; assumption. }
      destruct (S rest S1' S3 id) as [S4 S5]. split; [|exact S5]. destruct (existsb _ _) in S4; lia.
Qed.

(** ** The invariant.  [fl]: results are delivered in order. *)
Record past (fl : Prop) (hist : list state) (s : state) (out : list output) (kd kj : list nat) (ke : N -> nat) : Prop := {
  q_done : Forall2 (task_at hist (s_vfs s)) kd (s_done s);
  q_jobs : Forall2 (job_at hist (s_vfs s)) kj (s_jobs s);
  q_entries : entries_at hist (s_vfs s) ke (s_diags s);
  q_bound : forall id, (ke id < length hist)%nat;
  q_sorted : fl -> StronglySorted le (kd ++ kj);
  q_floor : fl -> forall id, Forall (le (ke id)) (kd ++ kj);
  q_out : forall comps, exists ks, Forall2 (fun p k => told hist k comps (snd p)) (publications comps out) ks /\
    (ks <> [] -> exists id, known (s_vfs s) id (Real comps)) /\
    (fl -> StronglySorted le ks /\ forall id, known (s_vfs s) id (Real comps) -> Forall (fun k => (k <= ke id)%nat) ks);
  q_tidy : tidy s
}.
Lemma past_bound hist v kd kj done jobs : Forall2 (task_at hist v) kd done -> Forall2 (job_at hist v) kj jobs ->
  Forall (fun k => (k <= length hist)%nat) (kd ++ kj).
Proof.
  intros H1 H2. apply Forall_app. split; [eapply Forall2_left; [|exact H1]|eapply Forall2_left; [|exact H2]].
  - intros k t [L _]. lia.
  - intros k j [L _]. lia.
Qed.

(** the database knows the texts of the open documents *)
Lemma doc_text s p id : inv s -> In p (map fst (s_docs s)) -> known (s_vfs s) id p ->
  exists comps v t, p = Real comps /\ scalars t /\ holds s comps v t /\ file_text (s_db s) id = Ok (crlf_to_lf t).
Proof.
  intros I Hp K. destruct I as [Mi Hn]. pose proof (m_vfs _ _ _ _ _ _ _ _ _ Mi) as Hv.
  destruct (proj2 Hv p (known_In _ _ _ K)) as (cs & t1 & -> & Hs1 & Hc1).
  destruct (m_text _ _ _ _ _ _ _ _ _ Mi _ _ K) as [[T1 T2]|(f & Hf & _)]; [|rewrite Hn in Hf; destruct Hf].
  destruct (alookup vpath_eqb (Real cs) (s_docs s)) as [v1|] eqn:Ev.
  2:{ exfalso. apply (alookup_None _ vpath_eqb_eq) in Ev. contradiction. }
  exists cs, v1, t1. split; [reflexivity|]. split; [exact Hs1|]. split.
  - split; [exact Ev|]. exists id. split; [eapply known_file_id; eauto|eapply known_contents; eauto].
  - unfold file_text. rewrite T1. cbn [unwrap]. rewrite (known_text _ _ _ t1 K Hc1 Hs1). reflexivity.
Qed.

Lemma absorb_changes ts : forall c id, In id (dc_changes (absorb c ts)) -> In id (dc_changes c) \/ In id (done_ids ts).
Proof.
  assert (S : forall l c id, In id (dc_changes (set_all c l)) -> In id (dc_changes c) \/ In id (map fst l)).
  { induction l as [|[i d] l IH]; intros c id; cbn [set_all fold_left map fst]; [auto|]. intros H. apply IH in H as [H|H]; [|cbn; auto].
    unfold set_native_diagnostics in H. cbn [fst snd] in H. destruct (match alookup N.eqb i (dc_native c) with Some _ => _ | None => _ end); [auto|].
    cbn [dc_changes] in H. apply set_insert_In in H as [->|H]; cbn; auto. }
  induction ts as [|t ts IH]; intros c id; cbn [absorb fold_left done_ids flat_map]; [auto|]. rewrite in_app_iff. intros H.
  apply IH in H as [H|H]; [|auto]. destruct t as [r b|l]; [auto|]. apply S in H. tauto.
Qed.

Section Past.
  Context (ho : hash_order).

  (** the jobs and results after a turn *)
  Lemma turn_at hist s0 wq cuts s' o kd kj : turned ho s0 wq cuts s' o ->
    Forall2 (task_at hist (s_vfs s0)) kd (s_done s0) -> Forall2 (job_at hist (s_vfs s0)) kj (s_jobs s0) ->
    exists kd' kj', Forall2 (task_at (hist ++ [s']) (s_vfs s')) kd' (s_done s') /\ Forall2 (job_at (hist ++ [s']) (s_vfs s')) kj' (s_jobs s') /\
      sub (kd' ++ kj') ((kd ++ kj) ++ [length hist]).
  Proof.
    intros T D J. pose proof (t_front _ _ _ _ _ _ T) as F.
    assert (X : extends (s_vfs s0) (s_vfs s')) by (intros id p; unfold known; rewrite (sf_interner _ _ F); auto).
    pose proof (t_done _ _ _ _ _ _ T) as Td. pose proof (t_jobs _ _ _ _ _ _ T) as Tj.
    assert (D' : Forall2 (task_at (hist ++ [s']) (s_vfs s')) kd (s_done s0)) by (eapply Forall2_mono; [|exact D]; intros; eapply task_more; eauto).
    assert (J' : Forall2 (job_at (hist ++ [s']) (s_vfs s')) kj (s_jobs s0)) by (eapply Forall2_mono; [|exact J]; intros; eapply job_more; eauto).
    destruct (jobs_cut_at (hist ++ [s']) (s_vfs s') (s_endings s') (s_jobs s0) kj cuts J') as (kc & Sc & Fc).
    set (ch := vfs_has_changes (s_vfs s0)) in *.
    exists (kd ++ if ch then kc else []).
    assert (Dd : Forall2 (task_at (hist ++ [s']) (s_vfs s')) (kd ++ if ch then kc else []) (s_done s')).
    { rewrite Td. apply Forall2_app; [exact D'|]. destruct ch; [exact Fc|constructor]. }
    destruct (negb wq || ch || s_docs_changed s0) eqn:Go.
    - destruct Tj as (ids & Hj & Hids). exists ((if ch then [] else kj) ++ [length hist]). split; [exact Dd|]. split.
      + rewrite Hj. apply Forall2_app; [fold ch; destruct ch; [constructor|exact J']|]. constructor; [|constructor].
        split; [rewrite app_length; cbn; lia|]. intros id Hid. cbn [jb_files jb_db] in *.
        destruct (Forall2_In_l _ _ _ id Hids Hid) as (p & Hp & K). apply (proj1 (ord_In ho _ _)) in Hp.
        destruct (doc_text s' p id (t_inv _ _ _ _ _ _ T) Hp K) as (comps & ver & t & -> & Hs & Hh & Ft).
        exists comps, s', ver, t. split; [exact K|]. split; [|auto]. rewrite nth_error_app2, Nat.sub_diag by lia. reflexivity.
      + rewrite app_assoc. apply sub_app; [|apply sub_refl]. rewrite <- app_assoc. apply sub_app; [apply sub_refl|].
        destruct ch; [rewrite app_nil_r; exact Sc|apply sub_refl].
    - assert (ch = false) as E by (destruct ch; [rewrite orb_true_r in Go; discriminate|reflexivity]). rewrite E in *.
      exists kj. split; [exact Dd|]. split; [rewrite Tj; exact J'|]. rewrite app_nil_r.
      rewrite <- (app_nil_r (kd ++ kj)) at 1. apply sub_app; [apply sub_refl|apply sub_none].
  Qed.
  Lemma order_after (fl : Prop) (hist : list state) kd kj kd' kj' (ke : N -> nat) : sub (kd' ++ kj') ((kd ++ kj) ++ [length hist]) ->
    Forall (fun k => (k <= length hist)%nat) (kd ++ kj) -> (forall id, (ke id <= length hist)%nat) ->
    (fl -> StronglySorted le (kd ++ kj)) -> (fl -> forall id, Forall (le (ke id)) (kd ++ kj)) ->
    (fl -> StronglySorted le (kd' ++ kj')) /\ (fl -> forall id, Forall (le (ke id)) (kd' ++ kj')).
  Proof.
    intros S B Bk H1 H2. split.
    - intros X. eapply sub_sorted; [exact S|]. apply sorted_snoc; auto.
    - intros X id. eapply sub_Forall; [exact S|]. apply Forall_app. split; [auto|]. constructor; [apply Bk|constructor].
  Qed.

  Lemma turn_tidy s0 wq cuts s' o : turned ho s0 wq cuts s' o -> nmade (s_diags s0) -> Forall tmade (s_done s0) -> tidy s'.
  Proof.
    intros T H1 H2. split.
    - apply T.
    - apply T.
    - intros id ds. rewrite (t_native _ _ _ _ _ _ T). apply H1.
    - rewrite (t_done _ _ _ _ _ _ T). apply Forall_app. split; [exact H2|]. destruct (vfs_has_changes _); [apply jobs_cut_made|constructor].
  Qed.
  Lemma publications_In comps v ds out : In (v, ds) (publications comps out) <-> In (OPublish (UFile comps) v ds) out.
  Proof.
    unfold publications. rewrite in_flat_map. split.
    - intros (o & Ho & H). destruct o as [| |[cs|u] ver d]; try destruct H. destruct (texts_eqb cs comps) eqn:E; [|destruct H].
      apply texts_eqb_eq in E as ->. destruct H as [H|[]]. injection H as -> ->. exact Ho.
    - intros H. eexists. split; [exact H|]. cbn. rewrite (proj2 (texts_eqb_eq comps comps) eq_refl). left. reflexivity.
  Qed.
  Lemma publication_source s ids comps v ds : vfs_inv (s_vfs s) -> In (OPublish (UFile comps) v ds) (flat_map (publication s) ids) ->
    exists id, In id ids /\ known (s_vfs s) id (Real comps) /\ ds = diagnostics_for (s_diags s) id.
  Proof.
    intros Hi. rewrite in_flat_map. intros (x & Hx & H). exists x. split; [exact Hx|]. unfold publication in H.
    destruct (vfs_file_path (s_vfs s) x) as [[cs|]| |] eqn:E; try destruct H. destruct (root_is_library _ _); [destruct H|].
    destruct H as [H|[]]. injection H as -> _ <-. split; [apply path_known; assumption|reflexivity].
  Qed.

  Lemma past_idle (fl : Prop) hist s s' out kd kj ke : past fl hist s out kd kj ke -> past fl (hist ++ [s']) s out kd kj ke.
  Proof.
    intros [Pd Pj Pe Pb Ps Pf Po Pt]. assert (X : extends (s_vfs s) (s_vfs s)) by (intros id p H; exact H). split; auto.
    - eapply Forall2_mono; [|exact Pd]; intros; eapply task_more; eauto.
    - eapply Forall2_mono; [|exact Pj]; intros; eapply job_more; eauto.
    - eapply entries_more; eauto.
    - intros id. rewrite app_length. specialize (Pb id). lia.
    - intros comps. destruct (Po comps) as (ks2 & F1 & F3). exists ks2. split; [|exact F3].
      eapply Forall2_mono; [|exact F1]. intros; apply told_more; assumption.
  Qed.

  Lemma past_step (fl : Prop) hist s out kd kj ke l s' o : inv s -> quiet s -> Forall valid_message (label_messages l) -> (fl -> in_order l) ->
    past fl hist s out kd kj ke -> step ho s l = Continue s' o ->
    exists kd' kj' ke', past fl (hist ++ [s']) s' (out ++ o) kd' kj' ke'.
  Proof.
    intros I Q V O P Es. pose proof (step_spec ho s l I Q V) as K. rewrite Es in K.
    destruct P as [Pd Pj Pe Pb Ps Pf Po Pt]. destruct l as [m cuts|picks|i|]; cbn [label_messages] in V.
    - assert (Em : of_res (handle_message ho s m cuts) = Continue s' o).
      { cbn [step] in Es. destruct m as [|n|]; auto. destruct n; auto. discriminate. }
      apply Forall_inv in V. destruct (handle_message_spec ho s m cuts I Q V) as [(sa & sb & oa & ob & He & Ev & T & Hm & _)|[_ [w Hm]]];
        rewrite Hm in Em; [|discriminate]. injection Em as -> <-.
      destruct (event_docs s m sa oa I He (y_docs _ Pt)) as [[ext Hext] _].
      pose proof (t_front _ _ _ _ _ _ T) as F.
      assert (X1 : extends (s_vfs s) (s_vfs sa)) by (intros id p; apply (known_ext _ _ ext); exact Hext).
      assert (X : extends (s_vfs s) (s_vfs s')) by (intros id p Hk; unfold known; rewrite (sf_interner _ _ F); apply X1; exact Hk).
      assert (Pd' : Forall2 (task_at hist (s_vfs sa)) kd (s_done sa)).
      { rewrite (e_done _ _ _ _ Ev). eapply Forall2_mono; [|exact Pd]. intros k t [L H]. split; [exact L|]. destruct t; [exact H|].
        intros id ds Hin. destruct (H id ds Hin) as (cs & Hk & Ht). exists cs. auto. }
      assert (Pj' : Forall2 (job_at hist (s_vfs sa)) kj (s_jobs sa)).
      { rewrite (e_jobs _ _ _ _ Ev). eapply Forall2_mono; [|exact Pj]. intros k j [L H]. split; [exact L|].
        intros id Hin. destruct (H id Hin) as (cs & s0 & ver & t & Hk & R). exists cs, s0, ver, t. auto. }
      destruct (turn_at hist sa true cuts s' ob kd kj T Pd' Pj') as (kd' & kj' & D1 & D2 & D3).
      pose proof (past_bound hist _ _ _ _ _ Pd Pj) as B.
      destruct (order_after fl hist kd kj kd' kj' ke D3 B) as [O1 O2]; [intros id; specialize (Pb id); lia|assumption..|].
      assert (Ob : ob = []).
      { rewrite (t_out _ _ _ _ _ _ T), (e_diags _ _ _ _ Ev), (y_changes _ Pt), (ord_nil ho). reflexivity. }
      exists kd', kj', ke. split; auto.
      + intros id ds. rewrite (t_native _ _ _ _ _ _ T), (e_diags _ _ _ _ Ev). intros L. destruct (Pe id ds L) as (cs & Hk & Ht).
        exists cs. split; [apply X; exact Hk|apply told_more; exact Ht].
      + intros id. rewrite app_length. specialize (Pb id). lia.
      + intros comps. destruct (Po comps) as (ks & F1 & F3 & F2). exists ks.
        assert (Z : publications comps (out ++ oa ++ ob) = publications comps out).
        { rewrite Ob, app_nil_r, publications_app, (e_out _ _ _ _ Ev), (publications_responses comps), app_nil_r. reflexivity. }
        rewrite Z. split; [eapply Forall2_mono; [|exact F1]; intros; apply told_more; assumption|].
        split; [intros Y; destruct (F3 Y) as [id Hk]; exists id; apply X; exact Hk|].
        intros Y. destruct (F2 Y) as [S1 S2]. split; [exact S1|]. intros id Hk. destruct ks as [|k0 ks]; [constructor|].
        destruct (F3 ltac:(discriminate)) as [id0 Hk0]. rewrite (known_fun _ _ _ _ Hk (X _ _ Hk0)). apply S2. exact Hk0.
      + eapply turn_tidy; [exact T| |].
        * rewrite (e_diags _ _ _ _ Ev). apply Pt.
        * rewrite (e_done _ _ _ _ Ev). apply Pt.
    - cbn [step] in Es. destruct (pick_tasks picks (s_done s)) as [ts bag] eqn:Ep.
      destruct (pick_tasks_at (task_at hist (s_vfs s)) picks _ _ _ kd Ep Pd) as (kt & kb & Ft & Fb & Eq).
      assert (Hm : Forall tmade ts /\ Forall tmade bag).
      { pose proof (y_done _ Pt) as H. apply pick_tasks_perm in Ep. rewrite Forall_forall in H.
        split; rewrite Forall_forall; intros t Hin; apply H; eapply Permutation_in; try exact Ep; apply in_or_app; auto. }
      destruct ts as [|t ts].
      { injection Es as <- <-. exists kd, kj, ke. rewrite app_nil_r. apply past_idle. split; auto. }
      destruct (received_spec ho s (t :: ts) bag I Q) as (s2 & o2 & Hr & T & _); [eapply pick_tasks_perm; eauto|].
      rewrite Hr in Es. injection Es as -> ->.
      destruct (absorb_at hist (s_vfs s) (t :: ts) kt (s_diags s) ke (y_native _ Pt) (proj1 Hm) Ft Pe) as (ke' & Ae & As & Ab).
      pose proof (t_front _ _ _ _ _ _ T) as F. pose proof (sf_interner _ _ F) as Fi. cbn [s_vfs with_diags with_tasks] in Fi.
      assert (X : extends (s_vfs s) (s_vfs s')) by (intros id p; unfold known; rewrite Fi; auto).
      assert (X' : extends (s_vfs s') (s_vfs s)) by (intros id p; unfold known; rewrite Fi; auto).
      destruct (turn_at hist _ true [] s' o kb kj T Fb Pj) as (kd' & kj' & D1 & D2 & D3).
      pose proof (past_bound hist _ _ _ _ _ Pd Pj) as B. pose proof (past_bound hist _ _ _ _ _ Fb Pj) as B'.
      pose proof (past_bound hist _ _ _ _ _ Ft (Forall2_nil _)) as Bt. rewrite app_nil_r in Bt.
      assert (Bt' : Forall (fun k => (k <= pred (length hist))%nat) kt).
      { eapply Forall2_left; [|exact Ft]. intros k x [L _]. lia. }
      assert (Bke : forall id, (ke' id < length hist)%nat).
      { intros id. specialize (Ab (pred (length hist))). pose proof (Pb id).
        assert (ke' id <= pred (length hist))%nat; [|lia]. apply Ab; [|exact Bt']. intros i. specialize (Pb i). lia. }
      assert (Fl : fl -> StronglySorted le (kb ++ kj) /\ forall id, (ke id <= ke' id)%nat /\ Forall (le (ke' id)) (kb ++ kj)).
      { intros Y. specialize (O Y). cbn [in_order] in O. specialize (Eq O). specialize (Ps Y). specialize (Pf Y). rewrite Eq, <- app_assoc in Ps.
        split; [clear - Ps; induction kt as [|k kt IH]; [exact Ps|]; inversion Ps; auto|].
        apply (As (kb ++ kj) Ps). intros id. specialize (Pf id). rewrite Eq, <- app_assoc in Pf. exact Pf. }
      destruct (order_after fl hist kb kj kd' kj' ke' D3 B') as [O1 O2]; [intros id; specialize (Bke id); lia|intros Y; apply (Fl Y)..|].
      exists kd', kj', ke'. pose proof (t_native _ _ _ _ _ _ T) as Hn. cbn [s_diags with_diags] in Hn.
      assert (Ent : entries_at (hist ++ [s']) (s_vfs s') ke' (s_diags s')).
      { intros id ds. rewrite Hn. intros L. destruct (Ae id ds L) as (cs & Hk & Ht). exists cs. split; [apply X; exact Hk|apply told_more; exact Ht]. }
      pose proof (absorb_absorbed (t :: ts) (s_diags s) (y_native _ Pt) (proj1 Hm)) as A.
      split; auto.
      + intros id. rewrite app_length. specialize (Bke id). lia.
      + intros comps. destruct (Po comps) as (ks & F1 & F3 & F2).
        assert (New : forall v ds, In (v, ds) (publications comps o) -> exists id, known (s_vfs s') id (Real comps) /\ told (hist ++ [s']) (ke' id) comps ds).
        { intros v ds Hin. apply publications_In in Hin. rewrite (t_out _ _ _ _ _ _ T) in Hin. cbn [s_diags with_diags] in Hin.
          destruct (publication_source s' _ comps v ds (proj1 (m_vfs _ _ _ _ _ _ _ _ _ (proj1 (t_inv _ _ _ _ _ _ T)))) Hin) as (id & Hid & Hk & ->).
          apply (proj1 (ord_In ho _ _)) in Hid. destruct (ab_some _ _ A id Hid) as [Z|Z]; [rewrite (y_changes _ Pt) in Z; destruct Z|].
          exists id. split; [exact Hk|]. destruct (alookup N.eqb id (dc_native (absorb (s_diags s) (t :: ts)))) as [ds|] eqn:El; [|contradiction].
          assert (Ed : diagnostics_for (s_diags s') id = ds).
          { unfold diagnostics_for, entry. rewrite Hn, El, (m_check _ _ _ _ _ _ _ _ _ (proj1 (t_inv _ _ _ _ _ _ T))). apply app_nil_r. }
          rewrite Ed. rewrite <- Hn in El. destruct (Ent id ds El) as (cs & Hk' & Ht).
          pose proof (known_inj _ _ _ _ Hk Hk') as Z'. injection Z' as ->. exact Ht. }
        rewrite publications_app. destruct (publications comps o) as [|p0 ps0] eqn:Ep0.
        * exists ks. rewrite app_nil_r. split; [eapply Forall2_mono; [|exact F1]; intros; apply told_more; assumption|].
          split; [intros Y; destruct (F3 Y) as [id Hk]; exists id; apply X; exact Hk|].
          intros Y. destruct (F2 Y) as [S1 S2]. split; [exact S1|]. intros id Hk. eapply Forall_impl; [|apply (S2 id (X' _ _ Hk))].
          cbv beta. intros k Hle. destruct (Fl Y) as [_ Fl2]. specialize (Fl2 id). lia.
        * destruct (New (fst p0) (snd p0)) as (id & Hk & _); [left; destruct p0; reflexivity|].
          exists (ks ++ repeat (ke' id) (length (p0 :: ps0))). split.
          { apply Forall2_app; [eapply Forall2_mono; [|exact F1]; intros; apply told_more; assumption|].
            assert (G : Forall (fun p : option Z * list lsp_diag => told (hist ++ [s']) (ke' id) comps (snd p)) (p0 :: ps0)).
            { rewrite Forall_forall. intros [v ds] Hin. destruct (New v ds Hin) as (id2 & Hk2 & Ht). rewrite (known_fun _ _ _ _ Hk Hk2). exact Ht. }
            clear -G. induction G; cbn [length repeat]; constructor; auto. }
          split; [intros _; exists id; exact Hk|]. intros Y. destruct (F2 Y) as [S1 S2]. destruct (Fl Y) as [_ Fl2].
          assert (Le : Forall (fun k => (k <= ke' id)%nat) ks).
          { eapply Forall_impl; [|apply (S2 id (X' _ _ Hk))]. cbv beta. intros k Hle. specialize (Fl2 id). lia. }
          split.
          -- clear -S1 Le. induction S1 as [|k ks S IH G]; cbn [app].
             ++ induction (length (p0 :: ps0)) as [|n IH]; cbn [repeat]; constructor; [exact IH|]. apply Forall_forall. intros x Hx. apply repeat_spec in Hx. lia.
             ++ inversion Le; subst. constructor; [auto|]. apply Forall_app. split; [exact G|]. apply Forall_forall. intros x Hx. apply repeat_spec in Hx. lia.
          -- intros id2 Hk2. rewrite (known_fun _ _ _ _ Hk2 Hk). apply Forall_app. split; [exact Le|]. apply Forall_forall.
             intros x Hx. apply repeat_spec in Hx. lia.
      + eapply turn_tidy; [exact T| |]; cbn [s_diags s_done with_diags with_tasks]; [apply A|apply Hm].
    - cbn [step] in Es. destruct (remove_nth i (s_jobs s)) as [[j rest]|] eqn:E; injection Es as <- <-; rewrite app_nil_r.
      + destruct (remove_nth_at _ _ _ _ _ kj E Pj) as (k & kr & Hk & Hr & Eq).
        destruct (job_run_at hist (s_vfs s) k (s_endings s) j (length (jb_files j)) Hk) as (ks & S & Fk).
        set (s' := with_tasks s rest _). exists (kd ++ ks), kr, ke.
        assert (X : extends (s_vfs s) (s_vfs s')) by (intros id p H; exact H).
        assert (Su : fl -> sub ((kd ++ ks) ++ kr) (kd ++ kj)).
        { intros Y. specialize (O Y). cbn [in_order] in O. rewrite (Eq O), <- app_assoc. apply sub_app; [apply sub_refl|].
          exact (sub_app ks [k] kr kr S (sub_refl kr)). }
        split.
        * cbn [s_done with_tasks s']. apply Forall2_app; eapply Forall2_mono; [|exact Pd| |exact Fk]; intros; eapply task_more; eauto.
        * cbn [s_jobs with_tasks s']. eapply Forall2_mono; [|exact Hr]. intros; eapply job_more; eauto.
        * cbn [s_diags with_tasks s']. eapply entries_more; eauto.
        * intros id. rewrite app_length. specialize (Pb id). lia.
        * intros Y. eapply sub_sorted; [exact (Su Y)|auto].
        * intros Y id. eapply sub_Forall; [exact (Su Y)|]. apply (Pf Y).
        * intros comps. destruct (Po comps) as (ks2 & F1 & F3). exists ks2. split; [|exact F3].
          eapply Forall2_mono; [|exact F1]. intros; apply told_more; assumption.
        * destruct Pt as [Y1 Y2 Y3 Y4]. split; auto. cbn [s_done with_tasks s']. apply Forall_app. split; [exact Y4|apply job_run_made].
      + exists kd, kj, ke. apply past_idle. split; auto.
    - discriminate.
  Qed.

  Lemma past_run (fl : Prop) ls : forall hist s out0 kd kj ke out e, inv s -> quiet s -> valid_labels ls -> (fl -> Forall in_order ls) ->
    past fl hist s out0 kd kj ke -> run ho s ls = (out, e) ->
    exists hist' s' kd' kj' ke', past fl (hist ++ hist') s' (out0 ++ out) kd' kj' ke' /\ (length hist' <= length ls)%nat /\
      forall k st, nth_error hist' k = Some st -> exists o, run ho s (firstn (S k) ls) = (o, Alive st).
  Proof.
    induction ls as [|l ls IH]; intros hist s out0 kd kj ke out e I Q V O P H; cbn [run] in H.
    - injection H as <- <-. exists [], s, kd, kj, ke. rewrite !app_nil_r. split; [exact P|]. split; [cbn; lia|]. intros [|k] st; discriminate.
    - unfold valid_labels, messages in V. cbn [flat_map] in V. apply Forall_app in V as [V1 V2].
      assert (Stop : out = [] -> exists hist' s' kd' kj' ke', past fl (hist ++ hist') s' (out0 ++ out) kd' kj' ke' /\ (length hist' <= length (l :: ls))%nat /\
        forall k st, nth_error hist' k = Some st -> exists o, run ho s (firstn (S k) (l :: ls)) = (o, Alive st)).
      { intros ->. exists [], s, kd, kj, ke. rewrite !app_nil_r. split; [exact P|]. split; [cbn; lia|]. intros [|k] st; discriminate. }
      pose proof (step_spec ho s l I Q V1) as K. destruct (step ho s l) as [s1 o1| | |w|] eqn:Es; try (injection H as <- _; auto; fail).
      destruct (run ho s1 ls) as [o2 e2] eqn:Er. injection H as <- ->.
      destruct (past_step fl hist s out0 kd kj ke l s1 o1 I Q V1) as (kd1 & kj1 & ke1 & P1); auto.
      { intros Y. specialize (O Y). inversion O; assumption. }
      destruct (IH (hist ++ [s1]) s1 (out0 ++ o1) kd1 kj1 ke1 o2 e (k_inv _ _ _ _ K) (k_quiet _ _ _ _ K) V2) as (hist' & s' & kd' & kj' & ke' & P2 & L & R); auto.
      { intros Y. specialize (O Y). inversion O; assumption. }
      exists (s1 :: hist'), s', kd', kj', ke'. rewrite <- !app_assoc in P2. split; [exact P2|]. split; [cbn; lia|].
      intros [|k] st Hk; cbn [nth_error] in Hk.
      + injection Hk as <-. cbn [firstn run]. rewrite Es. eauto.
      + destruct (R k st Hk) as [o Ho]. cbn [firstn run] in *. rewrite Es. destruct ls as [|l2 ls]; cbn [firstn run] in *; [injection Ho as _ <-; eauto|].
        rewrite Ho. eauto.
  Qed.
  Lemma start_past (fl : Prop) c did_save : exists ke, past fl [fst (start c did_save)] (fst (start c did_save)) (snd (start c did_save)) [] [] ke.
  Proof.
    exists (fun _ => 0%nat). destruct (start_fifo c did_save) as (Y & _ & _). split.
    - destruct did_save; constructor.
    - destruct did_save; constructor.
    - destruct did_save; intros id ds H; discriminate.
    - intros _. cbn. lia.
    - intros _. constructor.
    - intros _ id. constructor.
    - intros comps. exists []. split; [destruct did_save; constructor|]. split; [intros H; contradiction|]. intros _. split; [constructor|]. intros; constructor.
    - exact Y.
  Qed.

  (** the whole server *)
  Lemma past_serve (fl : Prop) c did_save ls out e : buildable c -> valid_labels ls -> (fl -> Forall in_order ls) ->
    serve ho c did_save ls = (out, e) ->
    forall comps, exists ks, Forall2 (fun p k => told_at ho c did_save ls k comps (snd p)) (publications comps out) ks /\
      (fl -> StronglySorted le ks).
  Proof.
    intros Hc V O H comps. destruct (serve_run ho c did_save ls out e H) as (out' & Hr & ->). destruct (inv_start c did_save Hc) as [I0 Q0].
    destruct (start_past fl c did_save) as [ke0 P0].
    destruct (past_run fl ls _ _ _ _ _ _ _ _ I0 Q0 V O P0 Hr) as (hist' & s' & kd & kj & ke & P & L & R).
    destruct (q_out _ _ _ _ _ _ _ P comps) as (ks & F & _ & S). exists ks. split; [|intros Y; apply (S Y)].
    eapply Forall2_mono; [|exact F]. intros p k (s & v & t & Hn & Hh & Hs & Hd). cbv beta.
    assert (Sv : forall ls0 o st, run ho (fst (start c did_save)) ls0 = (o, Alive st) ->
      exists o', serve ho c did_save ls0 = (o', Alive st)).
    { intros ls0 o st H0. unfold serve. destruct (start c did_save) as [s0 o0]. cbn [fst] in H0. rewrite H0. eauto. }
    destruct k as [|k]; cbn [app nth_error] in Hn.
    - injection Hn as <-. split; [lia|]. destruct (Sv [] [] (fst (start c did_save)) eq_refl) as [o Ho]. exists o, (fst (start c did_save)), v, t. auto.
    - assert (k < length hist')%nat by (apply nth_error_Some; congruence). destruct (R k s Hn) as [o Ho]. apply Sv in Ho as [o' Ho].
      split; [lia|]. exists o', s, v, t. auto.
  Qed.

  (** ** After a document has been closed *)
  Definition clear_of (s : state) (comps : list text) : Prop :=
    not_open s comps /\ forall id, known (s_vfs s) id (Real comps) ->
      (forall j, In j (s_jobs s) -> ~ In id (jb_files j)) /\ ~ In id (done_ids (s_done s)).
  Lemma job_run_ids e j cut id : In id (done_ids (job_run e j cut)) -> In id (jb_files j).
  Proof.
    unfold job_run. destruct (job_files e (jb_db j) (jb_files j) cut) as [l| |] eqn:E; [|intros []..]. cbn [done_ids flat_map]. rewrite app_nil_r.
    revert cut l E. generalize (jb_files j). induction l as [|i files IH]; intros cut l E Hin; cbn [job_files] in E.
    - destruct cut; injection E as <-; destruct Hin.
    - destruct cut as [|cut]; [injection E as <-; destruct Hin|]. destruct (publish_diagnostics _ _ i); cbn [bind] in E; try discriminate.
      destruct (job_files _ _ _ cut) as [r| |] eqn:E2; cbn [bind] in E; try discriminate. injection E as <-.
      destruct Hin as [X|X]; [left; exact X|right; eapply IH; eauto].
  Qed.
  Lemma jobs_cut_ids e jobs id : forall cuts, In id (done_ids (jobs_cut e jobs cuts)) -> exists j, In j jobs /\ In id (jb_files j).
  Proof.
    induction jobs as [|j jobs IH]; intros cuts; cbn [jobs_cut]; [intros []|]. rewrite done_ids_app, in_app_iff. intros [H|H].
    - exists j. split; [left; reflexivity|eapply job_run_ids; eauto].
    - destruct (IH _ H) as (j' & Hj & Hid). exists j'. split; [right; exact Hj|exact Hid].
  Qed.
  Lemma turn_clear s0 wq cuts s' o comps : turned ho s0 wq cuts s' o -> clear_of s0 comps -> clear_of s' comps.
  Proof.
    intros T [N C]. pose proof (t_front _ _ _ _ _ _ T) as F. assert (N' : not_open s' comps) by (unfold not_open; rewrite (sf_docs _ _ F); exact N).
    split; [exact N'|]. intros id K. assert (K0 : known (s_vfs s0) id (Real comps)) by (unfold known in *; rewrite (sf_interner _ _ F) in K; exact K).
    destruct (C id K0) as [C1 C2]. split.
    - pose proof (t_jobs _ _ _ _ _ _ T) as J. destruct (negb wq || _ || _); [|rewrite J; exact C1].
      destruct J as (ids & Hj & Hf). intros j Hin. rewrite Hj in Hin. apply in_app_iff in Hin as [Hin|[<-|[]]].
      + destruct (vfs_has_changes _); [destruct Hin|apply C1; exact Hin].
      + cbn [jb_files]. intros Hid. destruct (Forall2_In_l _ _ _ id Hf Hid) as (p & Hp & Kp). apply (proj1 (ord_In ho _ _)) in Hp.
        rewrite <- (known_inj _ _ _ _ K Kp) in Hp. apply (alookup_None _ vpath_eqb_eq) in N'. contradiction.
    - rewrite (t_done _ _ _ _ _ _ T), done_ids_app, in_app_iff. intros [H|H]; [contradiction|]. destruct (vfs_has_changes _); [|destruct H].
      destruct (jobs_cut_ids _ _ _ _ H) as (j & Hj & Hid). exact (C1 j Hj Hid).
  Qed.
  Lemma clear_step s l s' o comps : inv s -> quiet s -> tidy s -> Forall valid_message (label_messages l) ->
    Forall (fun m => ~ opens_doc comps m) (label_messages l) -> clear_of s comps -> step ho s l = Continue s' o ->
    clear_of s' comps /\ publications comps o = [] /\ tidy s'.
  Proof.
    intros I Q Y V NO C Es. pose proof (step_spec ho s l I Q V) as K. rewrite Es in K. destruct l as [m cuts|picks|i|]; cbn [label_messages] in V, NO.
    - assert (Em : of_res (handle_message ho s m cuts) = Continue s' o).
      { cbn [step] in Es. destruct m as [|n|]; auto. destruct n; auto. discriminate. }
      apply Forall_inv in V. apply Forall_inv in NO.
      destruct (handle_message_spec ho s m cuts I Q V) as [(sa & sb & oa & ob & He & Ev & T & Hm & _)|[_ [w Hm]]];
        rewrite Hm in Em; [|discriminate]. injection Em as -> <-.
      destruct (event_docs s m sa oa I He (y_docs _ Y)) as [[ext Hext] _].
      assert (Ob : ob = []) by (rewrite (t_out _ _ _ _ _ _ T), (e_diags _ _ _ _ Ev), (y_changes _ Y), (ord_nil ho); reflexivity).
      destruct C as [N C]. assert (Na : not_open sa comps).
      { pose proof (e_doc _ _ _ _ Ev comps) as D. unfold not_open in *. unfold doc in D. rewrite N in D.
        destruct (alookup vpath_eqb (Real comps) (s_docs sa)); [|reflexivity]. exfalso. inversion D; subst. apply NO. red. eauto. }
      split; [|split].
      + eapply turn_clear; [exact T|]. split; [exact Na|]. intros id Kid. rewrite (e_jobs _ _ _ _ Ev), (e_done _ _ _ _ Ev).
        assert (Old : known (s_vfs s) id (Real comps) \/ ~ exists p, known (s_vfs s) id p).
        { destruct (index_of (Real comps) (v_interner (s_vfs s))) as [j|] eqn:E.
          - left. pose proof (index_of_app_l _ _ ext _ E) as E'. rewrite <- Hext in E'. unfold known in *. congruence.
          - right. intros [p Hp]. pose proof (known_ext _ _ ext id p Hext Hp) as Hp'. pose proof (known_inj _ _ _ _ Kid Hp') as <-.
            unfold known in Hp. congruence. }
        destruct Old as [Old|Old]; [apply C; exact Old|].
        assert (Me : ~ In id (mentioned (s_diags s) (s_jobs s) (s_done s))) by (intros X; apply Old; apply (m_mentioned _ _ _ _ _ _ _ _ _ (proj1 I)); exact X).
        unfold mentioned in Me. rewrite !in_app_iff in Me. split; [|tauto]. intros j Hj Hid. apply Me. right. right. left. apply in_flat_map. eauto.
      + rewrite Ob, app_nil_r, (e_out _ _ _ _ Ev). apply publications_responses.
      + eapply turn_tidy; [exact T| |].
        * rewrite (e_diags _ _ _ _ Ev). apply Y.
        * rewrite (e_done _ _ _ _ Ev). apply Y.
    - cbn [step] in Es. destruct (pick_tasks picks (s_done s)) as [ts bag] eqn:Ep. destruct ts as [|t ts].
      { injection Es as <- <-. split; [exact C|]. split; [reflexivity|exact Y]. }
      pose proof (pick_tasks_perm _ _ _ _ Ep) as Pm.
      destruct (received_spec ho s (t :: ts) bag I Q Pm) as (s2 & o2 & Hr & T & _). rewrite Hr in Es. injection Es as -> ->.
      assert (Hm : Forall tmade (t :: ts) /\ Forall tmade bag).
      { pose proof (y_done _ Y) as H. rewrite Forall_forall in H.
        split; rewrite Forall_forall; intros x Hin; apply H; eapply Permutation_in; try exact Pm; apply in_or_app; auto. }
      pose proof (absorb_absorbed (t :: ts) (s_diags s) (y_native _ Y) (proj1 Hm)) as A.
      destruct C as [N C]. split; [|split].
      + eapply turn_clear; [exact T|]. split; [exact N|]. cbn [s_vfs s_jobs s_done with_diags with_tasks]. intros id Kid. destruct (C id Kid) as [C1 C2].
        split; [exact C1|]. intros H. apply C2. eapply done_ids_perm; [exact Pm|]. rewrite done_ids_app, in_app_iff. auto.
      + destruct (publications comps o) as [|[v ds] rest] eqn:Ep2; [reflexivity|]. exfalso.
        assert (Hin : In (v, ds) (publications comps o)) by (rewrite Ep2; left; reflexivity). apply publications_In in Hin.
        rewrite (t_out _ _ _ _ _ _ T) in Hin. cbn [s_diags with_diags] in Hin.
        destruct (publication_source s' _ comps v ds (proj1 (m_vfs _ _ _ _ _ _ _ _ _ (proj1 (t_inv _ _ _ _ _ _ T)))) Hin) as (id & Hid & Hk & _).
        apply (proj1 (ord_In ho _ _)) in Hid.
        assert (Hk0 : known (s_vfs s) id (Real comps)).
        { pose proof (sf_interner _ _ (t_front _ _ _ _ _ _ T)) as Fi. cbn [s_vfs with_diags with_tasks] in Fi. unfold known in *. rewrite Fi in Hk. exact Hk. }
        destruct (C id Hk0) as [_ C2]. pose proof (absorb_changes (t :: ts) (s_diags s) id Hid) as [X|X].
        * rewrite (y_changes _ Y) in X. destruct X.
        * apply C2. eapply done_ids_perm; [exact Pm|]. rewrite done_ids_app, in_app_iff. auto.
      + eapply turn_tidy; [exact T| |]; cbn [s_diags s_done with_diags with_tasks]; [apply A|apply Hm].
    - cbn [step] in Es. destruct (remove_nth i (s_jobs s)) as [[j rest]|] eqn:E; injection Es as <- <-; [|split; [exact C|]; split; [reflexivity|exact Y]].
      pose proof (remove_nth_perm _ _ _ _ E) as Pm. destruct C as [N C]. split; [|split; [reflexivity|]].
      + split; [exact N|]. cbn [s_vfs s_jobs s_done with_tasks]. intros id Kid. destruct (C id Kid) as [C1 C2]. split.
        * intros j' Hj. apply C1. eapply Permutation_in; [exact Pm|]. right. exact Hj.
        * rewrite done_ids_app, in_app_iff. intros [H|H]; [contradiction|]. apply job_run_ids in H. apply (C1 j); [|exact H].
          eapply Permutation_in; [exact Pm|]. left. reflexivity.
      + destruct Y as [Y1 Y2 Y3 Y4]. split; auto. cbn [s_done with_tasks]. apply Forall_app. split; [exact Y4|apply job_run_made].
    - discriminate.
  Qed.
  Lemma clear_run ls : forall s out e comps, inv s -> quiet s -> tidy s -> valid_labels ls ->
    Forall (fun m => ~ opens_doc comps m) (messages ls) -> clear_of s comps -> run ho s ls = (out, e) -> publications comps out = [].
  Proof.
    induction ls as [|l ls IH]; intros s out e comps I Q Y V NO C H; cbn [run] in H; [injection H as <- _; reflexivity|].
    unfold valid_labels, messages in V, NO. cbn [flat_map] in V, NO. apply Forall_app in V as [V1 V2]. apply Forall_app in NO as [N1 N2].
    pose proof (step_spec ho s l I Q V1) as K. destruct (step ho s l) as [s1 o1| | |w|] eqn:Es; try (injection H as <- _; reflexivity).
    destruct (run ho s1 ls) as [o2 e2] eqn:Er. injection H as <- ->.
    destruct (clear_step s l s1 o1 comps I Q Y V1 N1 C Es) as (C1 & E1 & Y1). rewrite publications_app, E1.
    eapply (IH s1); eauto; apply K.
  Qed.

  (** ** Patient clients *)
  Definition fresh (s : state) : Prop :=
    (forall j, In j (s_jobs s) -> jb_db j = s_db s /\ forall id, In id (jb_files j) -> exists p, In p (map fst (s_docs s)) /\ known (s_vfs s) id p) /\
    (forall l id ds, In (TDiagnostics l) (s_done s) -> In (id, ds) l ->
       (exists p, In p (map fst (s_docs s)) /\ known (s_vfs s) id p) /\ exists e, publish_diagnostics e (s_db s) id = Ok ds).
  Lemma event_same s m s1 out : (forall comps, ~ about comps m) -> on_event s m = Ok (s1, out) ->
    s_vfs s1 = s_vfs s /\ s_docs s1 = s_docs s /\ s_docs_changed s1 = s_docs_changed s.
  Proof.
    intros A H.
    assert (Resp : forall s id b, s_vfs (fst (respond s id b)) = s_vfs s /\ s_docs (fst (respond s id b)) = s_docs s /\ s_docs_changed (fst (respond s id b)) = s_docs_changed s).
    { intros s2 id b. unfold respond. destruct (alookup _ _ _); auto. }
    destruct m as [r|n|id]; cbn [on_event] in H.
    - injection H as H. assert (s1 = fst (on_request s r)) as -> by (rewrite H; reflexivity).
      unfold on_request. set (s0 := register_request s r). destruct (s_shutdown s0).
      + apply (Resp s0).
      + unfold dispatch_finish, on_sync_mut, dispatch_parse. destruct (text_eqb _ _); [destruct (rq_params r)|].
        * pose proof (Resp (with_shutdown s0 true) (rq_id r) BOk) as R. destruct (respond _ _ _). exact R.
        * pose proof (Resp s0 (rq_id r) (BErr InvalidParams)) as R. destruct (respond _ _ _). exact R.
        * pose proof (Resp s0 (rq_id r) (BErr MethodNotFound)) as R. destruct (respond _ _ _). exact R.
    - destruct n as [|[i|]|[[]|]|[p|]|[p|]|[u|]|mt]; cbn [on_notification extract bind] in H; try discriminate.
      + injection H as <- _. auto.
      + injection H as H. assert (s1 = fst (cancel s i)) as -> by (rewrite H; reflexivity). unfold cancel. destruct (alookup _ _ _); auto.
      + injection H as <- _. auto.
      + unfold did_open in H. destruct (op_url p) as [cs|u] eqn:E; cbn [vfs_path bind] in H; [exfalso; apply (A cs); exact E|]. injection H as <- _. auto.
      + unfold did_change in H. destruct (cp_url p) as [cs|u] eqn:E; cbn [vfs_path bind] in H; [exfalso; apply (A cs); exact E|]. injection H as <- _. auto.
      + destruct u as [cs|u]; [exfalso; apply (A cs); reflexivity|]. injection H as <- _. auto.
      + injection H as <- _. auto.
    - unfold complete_request in H. destruct (alookup _ _ _); cbn [unwrap bind] in H; [|discriminate]. injection H as <- _. auto.
  Qed.
  Lemma set_all_last l : forall c id, nmade c -> Forall (fun p => Forall made (snd p)) l -> In id (map fst l) ->
    exists ds, In (id, ds) l /\ alookup N.eqb id (dc_native (set_all c l)) = Some ds.
  Proof.
    induction l as [|[i d] l IH]; intros c id Hn Hm Hin; [destruct Hin|]. cbn [set_all fold_left fst snd].
    inversion Hm as [|? ? Hd Hm']; subst. cbn [snd] in Hd. destruct (set_native_absorbed c i d Hn Hd) as (A & B & C).
    fold (set_all (set_native_diagnostics c i d) l). destruct (in_dec N.eq_dec id (map fst l)) as [Y|Y].
    - destruct (IH _ id (ab_made _ _ A) Hm' Y) as (ds & H1 & H2). exists ds. split; [right; exact H1|exact H2].
    - cbn [map fst In] in Hin. destruct Hin as [->|Hin]; [|contradiction].
      destruct (set_all_absorbed l _ (ab_made _ _ A) Hm') as (_ & _ & C'). exists d. split; [left; reflexivity|]. rewrite C' by exact Y. exact B.
  Qed.
  Lemma absorb_last ts : forall c id, nmade c -> Forall tmade ts -> In id (done_ids ts) ->
    exists l ds, In (TDiagnostics l) ts /\ In (id, ds) l /\ alookup N.eqb id (dc_native (absorb c ts)) = Some ds.
  Proof.
    induction ts as [|t ts IH] using rev_ind; intros c id Hn Hm Hin; [destruct Hin|]. apply Forall_app in Hm as [Hm Ht]. apply Forall_inv in Ht.
    rewrite done_ids_app, in_app_iff in Hin. rewrite absorb_app.
    pose proof (absorb_absorbed ts c Hn Hm) as A. cbn [absorb fold_left]. fold (absorb c ts).
    assert (Old : In id (done_ids ts) -> (forall l, t = TDiagnostics l -> ~ In id (map fst l)) ->
      exists l ds, In (TDiagnostics l) (ts ++ [t]) /\ In (id, ds) l /\
        alookup N.eqb id (dc_native (match t with TDiagnostics l => set_all (absorb c ts) l | TResponse _ _ => absorb c ts end)) = Some ds).
    { intros H N. destruct (IH c id Hn Hm H) as (l & ds & H1 & H2 & H3). exists l, ds. split; [apply in_or_app; auto|]. split; [exact H2|].
      destruct t as [r b|l']; [exact H3|]. cbn [tmade] in Ht.
      destruct (set_all_absorbed l' (absorb c ts) (ab_made _ _ A) Ht) as (_ & _ & C). rewrite C; [exact H3|]. apply N. reflexivity. }
    destruct t as [r b|l].
    - destruct Hin as [H|H]; [|destruct H]. apply Old; [exact H|discriminate].
    - cbn [done_ids flat_map] in Hin. rewrite app_nil_r in Hin. destruct (in_dec N.eq_dec id (map fst l)) as [Y|Y].
      + destruct (set_all_last l (absorb c ts) id (ab_made _ _ A) Ht Y) as (ds & H1 & H2). exists l, ds. split; [apply in_or_app; right; left; reflexivity|]. auto.
      + destruct Hin as [H|H]; [|contradiction]. apply Old; [exact H|]. intros l' E. injection E as <-. exact Y.
  Qed.
  Lemma fresh_step s l s' o : inv s -> quiet s -> tidy s -> Forall valid_message (label_messages l) ->
    (forall m comps, In m (label_messages l) -> about comps m -> settled s) -> fresh s -> step ho s l = Continue s' o ->
    fresh s' /\ tidy s' /\
    forall comps v ds, In (v, ds) (publications comps o) ->
      exists ver t, v = Some ver /\ holds s' comps ver t /\ scalars t /\ diagnoses Utf8 (crlf_to_lf t) ds.
  Proof.
    intros I Q Y V St [Fj Fd] Es. pose proof (step_spec ho s l I Q V) as K. rewrite Es in K. destruct l as [m cuts|picks|i|]; cbn [label_messages] in V, St.
    - assert (Em : of_res (handle_message ho s m cuts) = Continue s' o).
      { cbn [step] in Es. destruct m as [|n|]; auto. destruct n; auto. discriminate. }
      apply Forall_inv in V.
      destruct (handle_message_spec ho s m cuts I Q V) as [(sa & sb & oa & ob & He & Ev & T & Hm & _)|[_ [w Hm]]];
        rewrite Hm in Em; [|discriminate]. injection Em as -> <-.
      assert (Ob : ob = []) by (rewrite (t_out _ _ _ _ _ _ T), (e_diags _ _ _ _ Ev), (y_changes _ Y), (ord_nil ho); reflexivity).
      assert (Po : forall comps, publications comps (oa ++ ob) = []) by (intros comps; rewrite Ob, app_nil_r, (e_out _ _ _ _ Ev); apply publications_responses).
      assert (Ty : tidy s').
      { eapply turn_tidy; [exact T| |].
        - rewrite (e_diags _ _ _ _ Ev). apply Y.
        - rewrite (e_done _ _ _ _ Ev). apply Y. }
      split; [|split; [exact Ty|intros comps v ds; rewrite Po; intros []]].
      assert (Ab : (exists comps, about comps m) \/ forall comps, ~ about comps m).
      { destruct m as [r|n|id]; try (right; intros comps X; exact X).
        destruct n as [|p|p|[p|]|[p|]|[u|]|mt]; try (right; intros comps X; exact X).
        - destruct (op_url p) as [cs|u] eqn:E; [left; exists cs; exact E|right; intros comps X; cbn in X; congruence].
        - destruct (cp_url p) as [cs|u] eqn:E; [left; exists cs; exact E|right; intros comps X; cbn in X; congruence].
        - destruct u as [cs|u]; [left; exists cs; reflexivity|right; intros comps X; cbn in X; congruence]. }
      pose proof (t_done _ _ _ _ _ _ T) as Td. pose proof (t_jobs _ _ _ _ _ _ T) as J. pose proof (t_front _ _ _ _ _ _ T) as F.
      rewrite (e_done _ _ _ _ Ev), (e_jobs _ _ _ _ Ev) in Td.
      destruct Ab as [[comps Ab]|Ab].
      + destruct (St m comps (or_introl eq_refl) Ab) as [S1 S2]. rewrite S1, S2 in Td.
        assert (Td' : s_done s' = []) by (rewrite Td; destruct (vfs_has_changes _); reflexivity).
        split; [|intros l id ds H; rewrite Td' in H; destruct H].
        destruct (negb true || _ || _).
        * destruct J as (ids & Hj & Hf). rewrite (e_jobs _ _ _ _ Ev), S1 in Hj. intros j Hin. rewrite Hj in Hin.
          destruct (vfs_has_changes _) in Hin; destruct Hin as [<-|[]]; cbn [jb_db jb_files]; (split; [reflexivity|]); intros id Hid;
            destruct (Forall2_In_l _ _ _ id Hf Hid) as (p & Hp & Kp); apply (proj1 (ord_In ho _ _)) in Hp; eauto.
        * intros j Hin. rewrite J, (e_jobs _ _ _ _ Ev), S1 in Hin. destruct Hin.
      + destruct (event_same s m sa oa Ab He) as (E1 & E2 & E3).
        assert (G1 : vfs_has_changes (s_vfs sa) = false) by (rewrite E1; unfold vfs_has_changes; rewrite (proj2 I); reflexivity).
        destruct (t_db _ _ _ _ _ _ T G1) as [D1 _]. rewrite G1, E3, (y_docs _ Y) in J. cbn [negb orb] in J. rewrite (e_jobs _ _ _ _ Ev) in J.
        rewrite G1, app_nil_r in Td. rewrite (e_db _ _ _ _ Ev) in D1. unfold fresh, known.
        rewrite J, Td, D1, (sf_docs _ _ F), (sf_interner _ _ F), E1, E2. split; [exact Fj|exact Fd].
    - cbn [step] in Es. destruct (pick_tasks picks (s_done s)) as [ts bag] eqn:Ep. destruct ts as [|t ts].
      { injection Es as <- <-. split; [split; assumption|]. split; [exact Y|]. intros comps v ds []. }
      pose proof (pick_tasks_perm _ _ _ _ Ep) as Pm.
      destruct (received_spec ho s (t :: ts) bag I Q Pm) as (s2 & o2 & Hr & T & _). rewrite Hr in Es. injection Es as -> ->.
      assert (Hm : Forall tmade (t :: ts) /\ Forall tmade bag).
      { pose proof (y_done _ Y) as H. rewrite Forall_forall in H.
        split; rewrite Forall_forall; intros x Hin; apply H; eapply Permutation_in; try exact Pm; apply in_or_app; auto. }
      pose proof (absorb_absorbed (t :: ts) (s_diags s) (y_native _ Y) (proj1 Hm)) as A.
      assert (G1 : vfs_has_changes (s_vfs s) = false) by (unfold vfs_has_changes; rewrite (proj2 I); reflexivity).
      pose proof (t_done _ _ _ _ _ _ T) as Td. cbn [s_done with_diags with_tasks s_vfs] in Td. rewrite G1, app_nil_r in Td.
      pose proof (t_jobs _ _ _ _ _ _ T) as J. cbn [negb orb s_vfs with_diags with_tasks s_docs_changed s_jobs] in J. rewrite G1, (y_docs _ Y) in J. cbn [orb] in J.
      destruct (t_db _ _ _ _ _ _ T G1) as [D1 _]. cbn [s_db with_diags with_tasks] in D1.
      pose proof (t_front _ _ _ _ _ _ T) as F. pose proof (sf_interner _ _ F) as Fi. pose proof (sf_docs _ _ F) as Fo. cbn [s_vfs s_docs with_diags with_tasks] in Fi, Fo.
      split; [|split].
      + unfold fresh, known. rewrite J, Td, D1, Fi, Fo. split; [exact Fj|]. intros l id ds H. apply Fd. eapply Permutation_in; [exact Pm|]. apply in_or_app; auto.
      + eapply turn_tidy; [exact T| |]; cbn [s_diags s_done with_diags with_tasks]; [apply A|apply Hm].
      + intros comps v ds Hin. apply publications_In in Hin. rewrite (t_out _ _ _ _ _ _ T) in Hin. cbn [s_diags with_diags] in Hin.
        assert (Hv : v = alookup vpath_eqb (Real comps) (s_docs s')).
        { clear -Hin. apply in_flat_map in Hin as (x & _ & H). unfold publication in H. destruct (vfs_file_path (s_vfs s') x) as [[cs|]| |]; try destruct H.
          destruct (root_is_library _ _); [destruct H|]. destruct H as [H|[]]. injection H as -> <- _. reflexivity. }
        destruct (publication_source s' _ comps v ds (proj1 (m_vfs _ _ _ _ _ _ _ _ _ (proj1 (t_inv _ _ _ _ _ _ T)))) Hin) as (id & Hid & Hk & ->).
        apply (proj1 (ord_In ho _ _)) in Hid. destruct (absorb_changes (t :: ts) (s_diags s) id Hid) as [X|X]; [rewrite (y_changes _ Y) in X; destruct X|].
        destruct (absorb_last (t :: ts) (s_diags s) id (y_native _ Y) (proj1 Hm) X) as (l & ds & L1 & L2 & L3).
        destruct (Fd l id ds) as [(p & Hp & Kp) [e0 He]]; [eapply Permutation_in; [exact Pm|]; apply in_or_app; auto|exact L2|].
        assert (Kp' : known (s_vfs s') id p) by (unfold known; rewrite Fi; exact Kp).
        rewrite (known_inj _ _ _ _ Kp' Hk) in Hp. rewrite <- Fo in Hp.
        destruct (doc_text s' (Real comps) id (t_inv _ _ _ _ _ _ T) Hp Hk) as (cs & ver & tx & E & Hs & Hh & Ft). injection E as <-.
        exists ver, tx. split; [rewrite Hv; apply Hh|]. split; [exact Hh|]. split; [exact Hs|].
        assert (Ed : diagnostics_for (s_diags s') id = ds).
        { unfold diagnostics_for, entry. rewrite (t_native _ _ _ _ _ _ T). cbn [s_diags with_diags]. rewrite L3, (m_check _ _ _ _ _ _ _ _ _ (proj1 (t_inv _ _ _ _ _ _ T))). apply app_nil_r. }
        rewrite Ed. rewrite D1 in Ft. eapply published_text; eauto.
    - cbn [step] in Es. destruct (remove_nth i (s_jobs s)) as [[j rest]|] eqn:E; injection Es as <- <-; [|split; [split; assumption|]; split; [exact Y|intros comps v ds []]].
      pose proof (remove_nth_perm _ _ _ _ E) as Pm. split; [|split; [|intros comps v ds []]].
      + unfold fresh. cbn [s_jobs s_done s_db s_docs s_vfs with_tasks]. split.
        * intros j' Hj. apply Fj. eapply Permutation_in; [exact Pm|]. right. exact Hj.
        * intros l id ds Hl Hin. apply in_app_iff in Hl as [Hl|Hl]; [eapply Fd; eauto|].
          destruct (Fj j) as [J1 J2]; [eapply Permutation_in; [exact Pm|]; left; reflexivity|].
          assert (Hid : In id (jb_files j)).
          { apply (job_run_ids (s_endings s) j (length (jb_files j))). apply in_flat_map. exists (TDiagnostics l). split; [exact Hl|].
            apply in_map_iff. exists (id, ds). auto. }
          split; [apply J2; exact Hid|]. unfold job_run in Hl. destruct (job_files _ _ _ _) as [r| |] eqn:Er; [|destruct Hl..].
          destruct Hl as [X|[]]. injection X as ->. exists (s_endings s). rewrite <- J1. eapply job_files_In; eauto.
      + destruct Y as [Y1 Y2 Y3 Y4]. split; auto. cbn [s_done with_tasks]. apply Forall_app. split; [exact Y4|apply job_run_made].
    - discriminate.
  Qed.
  Lemma patient_run c did_save ls : forall before s out0, buildable c -> serve ho c did_save before = (out0, Alive s) ->
    inv s -> quiet s -> tidy s -> fresh s -> valid_labels ls -> patient ho c did_save (before ++ ls) ->
    forall out s', run ho s ls = (out, Alive s') -> fresh s' /\ tidy s'.
  Proof.
    induction ls as [|l ls IH]; intros before s out0 Hc Hb I Q Y F V P out s' R; cbn [run] in R; [injection R as _ <-; auto|].
    unfold valid_labels, messages in V. cbn [flat_map] in V. apply Forall_app in V as [V1 V2].
    pose proof (step_spec ho s l I Q V1) as K. destruct (step ho s l) as [s1 o1| | |w|] eqn:Es; try discriminate.
    destruct (run ho s1 ls) as [o2 e2] eqn:Er. injection R as _ ->.
    destruct (fresh_step s l s1 o1 I Q Y V1) as (F1 & Y1 & _); auto.
    { intros m comps Hm Ha. destruct l as [m' cuts| | |]; cbn [label_messages] in Hm; [|destruct Hm..].
      destruct Hm as [<-|[]]. exact (P before m' cuts ls comps out0 s eq_refl Ha Hb). }
    assert (Hb' : exists out1, serve ho c did_save (before ++ [l]) = (out1, Alive s1)).
    { destruct (serve_run ho c did_save before out0 _ Hb) as (ob & Hr & ->). unfold serve in *. destruct (start c did_save) as [s0 o0]. cbn [fst snd] in *. eexists.
      rewrite (run_app ho _ _ [l] _ _ Hr). cbn [run]. rewrite Es. cbn [fst snd]. reflexivity. }
    destruct Hb' as [out1 Hb'].
    eapply (IH (before ++ [l]) s1); [exact Hc|exact Hb'|apply K|apply K|exact Y1|exact F1|exact V2|rewrite <- app_assoc; exact P|exact Er].
  Qed.
End Past.
