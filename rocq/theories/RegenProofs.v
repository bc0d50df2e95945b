(** Proofs about the generator's output files. *)
From Coq Require Import String.
From Verif Require Import Base BaseProofs Fixture Regen RegenSpec.
Local Open Scope N_scope.

(** ** Line ends *)
Lemma norm_cr r : normalize_newlines (cCR :: cLF :: r) = cLF :: normalize_newlines r.
Proof. destruct r; reflexivity. Qed.
Lemma norm_other c r : (c = cCR -> forall s, r <> cLF :: s) -> normalize_newlines (c :: r) = c :: normalize_newlines r.
Proof.
  intros H. unfold normalize_newlines, str_replace. cbn [replace_from starts_with].
  destruct (c =? cCR) eqn:E; [|reflexivity]. apply N.eqb_eq in E. destruct r as [|x r]; [reflexivity|].
  destruct (x =? cLF) eqn:X; [|cbn [starts_with]; rewrite X; reflexivity]. apply N.eqb_eq in X. subst x. destruct (H E r eq_refl).
Qed.
Lemma norm_end l : ~ In cLF l -> normalize_newlines l = l.
Proof.
  induction l as [|c l IH]; intros H; [reflexivity|]. rewrite norm_other, IH; [reflexivity| |].
  - intros I. apply H. right. exact I.
  - intros _ s ->. apply H. right. left. reflexivity.
Qed.
Lemma norm_line l l' r : ~ In cLF l -> bare l l' -> normalize_newlines (l ++ cLF :: r) = l' ++ cLF :: normalize_newlines r.
Proof.
  revert l'. induction l as [|c l IH]; intros l' N B.
  - destruct B as [B|[<- _]]; [destruct l'; discriminate B|]. cbn [app]. apply norm_other. discriminate.
  - assert (N' : ~ In cLF l) by (intros I; apply N; right; exact I). cbn [app].
    destruct B as [B|[<- B]].
    + destruct l' as [|c' l']; cbn [app] in B; injection B as -> B.
      * subst l. apply norm_cr.
      * cbn [app]. rewrite norm_other.
        -- f_equal. apply IH; [exact N'|]. left. exact B.
        -- intros _ s E. destruct l as [|x l]; [destruct l'; discriminate B|]. cbn in E. injection E as -> _. apply N'. left. reflexivity.
    + cbn [app]. rewrite norm_other.
      * f_equal. apply IH; [exact N'|]. right. split; [reflexivity|]. intros (x & ->). apply B. exists (c :: x). reflexivity.
      * intros -> s E. destruct l as [|x l]; [apply B; exists []; reflexivity|]. cbn in E. injection E as -> _. apply N'. left. reflexivity.
Qed.
Lemma bare_ex l : exists l', bare l l'.
Proof.
  destruct l as [|c l] using rev_ind; [exists []; right; split; [reflexivity|]; intros (x & E); destruct x; discriminate E|].
  destruct (N.eq_dec c cCR) as [->|Nc]; [exists l; left; reflexivity|]. exists (l ++ [c]). right. split; [reflexivity|].
  intros (x & E). apply app_inj_tail in E as [_ E]. auto.
Qed.
Lemma bare_no_lf l l' : bare l l' -> ~ In cLF l -> ~ In cLF l'.
Proof. intros [->|[<- _]] H I; apply H; [apply in_app_iff; left; exact I|exact I]. Qed.
Lemma first_line t : ~ In cLF t \/ exists l r, t = l ++ cLF :: r /\ ~ In cLF l.
Proof.
  induction t as [|c t IH]; [left; intros []|]. destruct (N.eq_dec c cLF) as [->|Nc]; [right; exists [], t; split; [reflexivity|intros []]|].
  destruct IH as [IH|(l & r & -> & H)].
  - left. intros [E|I]; auto.
  - right. exists (c :: l), r. split; [reflexivity|]. intros [E|I]; auto.
Qed.
Lemma line_eq l1 l2 r1 r2 : ~ In cLF l1 -> ~ In cLF l2 -> l1 ++ cLF :: r1 = l2 ++ cLF :: r2 -> l1 = l2 /\ r1 = r2.
Proof.
  revert l2. induction l1 as [|c l1 IH]; intros [|c2 l2] H1 H2 E; cbn [app] in E; inversion E; subst.
  - split; reflexivity.
  - exfalso. apply H2. left. reflexivity.
  - exfalso. apply H1. left. reflexivity.
  - destruct (IH l2) as [-> ->]; auto; intros I; [apply H1|apply H2]; right; exact I.
Qed.
Lemma same_lines_ok a b : same_lines a b <-> normalize_newlines a = normalize_newlines b.
Proof.
  split.
  - induction 1 as [l _|l1 l2 l r1 r2 N1 N2 B1 B2 _ IH]; [reflexivity|]. rewrite (norm_line _ l), (norm_line _ l), IH by assumption. reflexivity.
  - remember (List.length a) as n eqn:Ln. assert (L : (List.length a <= n)%nat) by lia. clear Ln. revert a b L.
    induction n as [|n IH]; intros a b L E.
    + destruct a; [|cbn in L; lia]. destruct (first_line b) as [N|(l & r & -> & N)].
      * rewrite (norm_end b N) in E. cbn in E. subst b. constructor. exact N.
      * destruct (bare_ex l) as [l' B]. rewrite (norm_line _ l' _ N B) in E. destruct l'; discriminate E.
    + destruct (first_line a) as [N|(l & r & -> & N)], (first_line b) as [N2|(l2 & r2 & -> & N2)].
      * rewrite (norm_end a N), (norm_end b N2) in E. subst b. constructor. exact N.
      * destruct (bare_ex l2) as [l' B]. rewrite (norm_end a N), (norm_line _ l' _ N2 B) in E. exfalso. apply N. rewrite E. apply in_app_iff. right. left. reflexivity.
      * destruct (bare_ex l) as [l' B]. rewrite (norm_end b N2), (norm_line _ l' _ N B) in E. exfalso. apply N2. rewrite <- E. apply in_app_iff. right. left. reflexivity.
      * destruct (bare_ex l) as [l' B]. destruct (bare_ex l2) as [l2' B2]. rewrite (norm_line _ l' _ N B), (norm_line _ l2' _ N2 B2) in E.
        apply line_eq in E as [<- E]; [|eapply bare_no_lf; eassumption|eapply bare_no_lf; eassumption].
        econstructor; try eassumption. apply IH; [|exact E]. rewrite app_length in L. cbn in L. lia.
Qed.

(** ** One file *)
Section Writable.
Variable writable : text -> bool.
Lemma ensure_fine d f c : up_to_date d (f, c) -> try_ensure_file_contents writable d f c = Ok (d, true).
Proof.
  intros (old & E & S). cbn [fst snd] in *. unfold try_ensure_file_contents. rewrite E. apply same_lines_ok in S. rewrite S.
  rewrite (proj2 (text_eqb_eq _ _) eq_refl). reflexivity.
Qed.
Lemma ensure_stale d f c : ~ up_to_date d (f, c) ->
  try_ensure_file_contents writable d f c = if writable f then Ok (put d f c, false) else Panic PUnwrap.
Proof.
  intros N. unfold try_ensure_file_contents. destruct (d f) as [old|] eqn:E; [|reflexivity].
  destruct (text_eqb (normalize_newlines old) (normalize_newlines c)) eqn:T; [|reflexivity].
  apply text_eqb_eq in T. destruct N. exists old. split; [exact E|]. apply same_lines_ok. exact T.
Qed.
Lemma up_to_date_dec d j : up_to_date d j \/ ~ up_to_date d j.
Proof.
  destruct j as [f c]. destruct (d f) as [old|] eqn:E.
  - destruct (text_eqb (normalize_newlines old) (normalize_newlines c)) eqn:T.
    + left. exists old. split; [exact E|]. apply same_lines_ok, text_eqb_eq. exact T.
    + right. intros (o & E' & S). cbn [fst snd] in *. rewrite E in E'. injection E' as <-. apply same_lines_ok, text_eqb_eq in S. congruence.
  - right. intros (o & E' & _). cbn [fst] in E'. congruence.
Qed.

(** ** A run *)
Lemma run_cases d fs :
  (generate writable d fs = (d, Passed) /\ Forall (up_to_date d) fs) \/
  exists a f c b, fs = a ++ (f, c) :: b /\ Forall (up_to_date d) a /\ ~ up_to_date d (f, c) /\
    generate writable d fs = if writable f then (put d f c, NotUpToDate) else (d, CannotWrite).
Proof.
  induction fs as [|[f c] fs IH]; [left; split; [reflexivity|constructor]|]. cbn [generate].
  destruct (up_to_date_dec d (f, c)) as [U|N].
  - rewrite (ensure_fine _ _ _ U). destruct IH as [[E F]|(a & f' & c' & b & -> & F & N & E)].
    + left. split; [exact E|constructor; assumption].
    + right. exists ((f, c) :: a), f', c', b. split; [reflexivity|]. split; [constructor; assumption|]. split; assumption.
  - right. exists [], f, c, fs. split; [reflexivity|]. split; [constructor|]. split; [exact N|]. rewrite (ensure_stale _ _ _ N). destruct (writable f); reflexivity.
Qed.
Lemma put_same d f c : put d f c f = Some c.
Proof. unfold put. rewrite (proj2 (text_eqb_eq _ _) eq_refl). reflexivity. Qed.
Lemma put_other d f c g : g <> f -> put d f c g = d g.
Proof. intros H. unfold put. destruct (text_eqb g f) eqn:E; [apply text_eqb_eq in E; contradiction|reflexivity]. Qed.
Lemma put_date d f c j : fst j <> f -> up_to_date (put d f c) j <-> up_to_date d j.
Proof. intros H. unfold up_to_date. rewrite put_other by exact H. reflexivity. Qed.
Lemma put_now d f c : up_to_date (put d f c) (f, c).
Proof. exists c. split; [apply put_same|]. apply same_lines_ok. reflexivity. Qed.

Lemma stale_total d fs : exists k, stale d fs k /\ (k <= List.length fs)%nat.
Proof.
  induction fs as [|j fs (k & St & L)]; [exists 0%nat; split; [constructor|cbn; lia]|].
  destruct (up_to_date_dec d j) as [U|N]; [exists k|exists (S k)]; (split; [constructor; assumption|cbn; lia]).
Qed.
Lemma stale_put d f c fs k : ~ In f (map fst fs) -> stale d fs k -> stale (put d f c) fs k.
Proof.
  intros N St. induction St as [|j js k U S IH|j js k U S IH]; [constructor| |]; cbn [map In] in N;
    (constructor; [rewrite put_date; [exact U|intros E; apply N; left; exact E]|apply IH; intros I; apply N; right; exact I]).
Qed.
Lemma stale_app d a b k : Forall (up_to_date d) a -> stale d (a ++ b) k -> stale d b k.
Proof. induction 1 as [|j a U _ IH]; intros S; [exact S|]. cbn [app] in S. inversion S; subst; [auto|contradiction]. Qed.
Lemma stale_app' d a b k : Forall (up_to_date d) a -> stale d b k -> stale d (a ++ b) k.
Proof. induction 1 as [|j a U _ IH]; intros S; [exact S|]. cbn [app]. constructor; auto. Qed.
Lemma stale_zero d fs : stale d fs 0 -> Forall (up_to_date d) fs.
Proof. remember 0%nat as z eqn:Z. induction 1; [constructor| |discriminate Z]. constructor; auto. Qed.

Lemma run_step d fs k : NoDup (map fst fs) -> (forall f, In f (map fst fs) -> writable f = true) -> stale d fs k ->
  match k with
  | O => generate writable d fs = (d, Passed)
  | S k => exists d', generate writable d fs = (d', NotUpToDate) /\ stale d' fs k
  end.
Proof.
  intros ND W S. destruct (run_cases d fs) as [[E F]|(a & f & c & b & -> & F & N & E)].
  - destruct k as [|k]; [exact E|]. exfalso. clear - S F. induction F as [|j fs U F IH]; inversion S; subst; auto.
  - destruct k as [|k].
    + apply stale_zero in S. apply Forall_app in S as [_ S]. inversion S; subst. contradiction.
    + rewrite map_app in ND, W. cbn [map fst] in ND, W. rewrite W in E by (apply in_app_iff; right; left; reflexivity).
      exists (put d f c). split; [exact E|]. apply stale_app in S; [|exact F]. inversion S; subst; [contradiction|].
      assert (Nb : ~ In f (map fst b) /\ ~ In f (map fst a)).
      { apply NoDup_remove_2 in ND. split; intros I; apply ND, in_app_iff; auto. }
      apply stale_app'.
      * rewrite Forall_forall in *. intros j J. apply put_date; [|apply F; exact J]. intros X. apply (proj2 Nb). rewrite <- X. apply in_map. exact J.
      * apply stale_fine; [apply put_now|]. apply stale_put; [apply Nb|assumption].
Qed.
Lemma again_passed n : forall d fs, generate writable d fs = (d, Passed) -> again writable n d fs = d.
Proof. induction n as [|n IH]; intros d fs E; [reflexivity|]. cbn [again]. rewrite E. cbn [fst]. apply IH. exact E. Qed.
Lemma settle k : forall d fs n, NoDup (map fst fs) -> (forall f, In f (map fst fs) -> writable f = true) -> stale d fs k ->
  snd (generate writable (again writable n d fs) fs) = if (n <? k)%nat then NotUpToDate else Passed.
Proof.
  induction k as [|k IH]; intros d fs n ND W S; pose proof (run_step _ _ _ ND W S) as R; cbn beta iota in R.
  - rewrite again_passed, R by exact R. reflexivity.
  - destruct R as (d' & E & S'). destruct n as [|n]; cbn [again]; rewrite E; [reflexivity|]. cbn [fst].
    rewrite (IH d' fs n ND W S'). reflexivity.
Qed.
End Writable.
