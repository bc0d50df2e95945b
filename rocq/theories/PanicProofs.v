(** Proofs about the contexts of panics. *)
From Coq Require Import String.
From Verif Require Import Base PanicContext PanicSpec.

(** The two ways to write a report agree. *)
Lemma report_hook open m : report open m = hook_lines open ++ [Standard m].
Proof. destruct open; reflexivity. Qed.

(** What is written on the way out, from the frames [k] with the contexts [c]. *)
Inductive leaves : list text -> list frame -> bool -> list line -> bool -> Prop :=
| l_end p : leaves [] [] p [] p
| l_then c b k o p o' q : writes c b o p -> leaves c k p o' q -> leaves c (KThen b :: k) false (o ++ o') q
| l_then_panic c b k o q : leaves c k true o q -> leaves c (KThen b :: k) true o q
| l_guard c x k p o q : leaves c k p o q -> leaves (c ++ [x]) (KGuard :: k) p o q
| l_caught c k p o q : leaves c k false o q -> leaves c (KCaught :: k) p o q.

(** What a thread will still write. *)
Inductive left_to : thread -> list line -> bool -> Prop :=
| lt_run v c k o p o' q : writes v c o p -> leaves v k p o' q -> left_to (Thread v (Run c k)) (o ++ o') q
| lt_hook v todo k o q : leaves v k true o q -> left_to (Thread v (Hook todo k)) (todo ++ o) q
| lt_unwind v k o q : leaves v k true o q -> left_to (Thread v (Unwind k)) o q
| lt_over q : left_to (Thread [] (Over q)) [] q.

Lemma writes_total c : forall open, exists o p, writes open c o p.
Proof.
  induction c as [|m|x b IH|b IH|a IHa b IHb]; intros open.
  - do 2 eexists; constructor.
  - do 2 eexists; constructor.
  - destruct (IH (open ++ [x])) as (o & p & H); do 2 eexists; constructor; eassumption.
  - destruct (IH open) as (o & p & H); do 2 eexists; econstructor; eassumption.
  - destruct (IHa open) as (o & [|] & H).
    + do 2 eexists; eapply w_then_panic; eassumption.
    + destruct (IHb open) as (o' & p & H'); do 2 eexists; eapply w_then; eassumption.
Qed.

Lemma writes_functional open c o p o' p' : writes open c o p -> writes open c o' p' -> o = o' /\ p = p'.
Proof.
  intros H; revert o' p'; induction H; intros ? ? H'; inversion H'; subst; auto.
  - match goal with H : writes _ b _ _ |- _ => destruct (IHwrites _ _ H) as [-> _] end; auto.
  - match goal with H : writes _ a _ _ |- _ => destruct (IHwrites1 _ _ H) as [-> _] end.
    match goal with H : writes _ b _ _ |- _ => destruct (IHwrites2 _ _ H) as [-> ->] end; auto.
  - match goal with H : writes _ a _ _ |- _ => destruct (IHwrites1 _ _ H) as [_ E]; discriminate E end.
  - match goal with H : writes _ a _ _ |- _ => destruct (IHwrites _ _ H) as [_ E]; discriminate E end.
Qed.

(** The invariant: nothing was aborted, contexts are only there once the hook is,
    and what was written with what is left is what the code writes. *)
Definition good (codes : nat -> code) (w : world) : Prop :=
  aborted w = false /\ (hooked w = false -> forall i, ctx (threads w i) = []) /\
  forall i, exists o p r, writes [] (codes i) o p /\ left_to (threads w i) r p /\ written i w ++ r = o.

Lemma written_set i j t w : written i (set_thread j t w) = written i w.
Proof. reflexivity. Qed.

Lemma good_start codes : good codes (start codes).
Proof.
  repeat split; auto.
  intros i. destruct (writes_total (codes i) []) as (o & p & H).
  exists o, p, (o ++ []). split; [assumption|]. split; [|cbn; apply app_nil_r].
  cbn. eapply lt_run; [eassumption|constructor].
Qed.

Lemma pop_snoc (v : list text) x : pop (v ++ [x]) = Some v.
Proof. unfold pop. destruct (v ++ [x]) eqn:E; [destruct v; discriminate|]. now rewrite <- E, removelast_last. Qed.

Lemma goes_good codes w i c p :
  good codes w -> (hooked w = false -> c = []) ->
  (forall r q, left_to (threads w i) r q -> left_to (Thread c p) r q) ->
  good codes (set_thread i (Thread c p) w).
Proof.
  intros (A & B & C) Hc H. split; [exact A|]. split.
  - intros Hh j. cbn. destruct (Nat.eqb j i); [now apply Hc|now apply B].
  - intros j. destruct (C j) as (o & q & r & W & L & E). exists o, q, r. split; [assumption|]. split; [|exact E].
    cbn. destruct (Nat.eqb j i) eqn:Ej; [|assumption]. apply Nat.eqb_eq in Ej; subst. now apply H.
Qed.

Lemma step_good codes i w w' : good codes w -> step i w = Some w' -> good codes w'.
Proof.
  intros G. pose proof G as (A & B & C). unfold step. rewrite A.
  destruct (C i) as (o & q & r & W & L & E).
  destruct (threads w i) as [v pt] eqn:T. cbn [ctx where_].
  assert (Bi : hooked w = false -> v = []) by (intros Hh; specialize (B Hh i); now rewrite T in B).
  destruct pt as [c k|todo k|k|b].
  - destruct c as [|m|x b|b|a b].
    + destruct k as [|[b| |] k].
      * injection 1 as <-. apply goes_good; auto. rewrite T. intros r' q' L'. inversion L'; subst.
        match goal with H : writes _ _ _ _ |- _ => inversion H; subst end.
        match goal with H : leaves _ _ _ _ _ |- _ => inversion H; subst end. constructor.
      * injection 1 as <-. apply goes_good; auto. rewrite T. intros r' q' L'. inversion L'; subst.
        match goal with H : writes _ _ _ _ |- _ => inversion H; subst end.
        match goal with H : leaves _ _ _ _ _ |- _ => inversion H; subst end. cbn. econstructor; eassumption.
      * inversion L; subst.
        match goal with H : writes _ Pass _ _ |- _ => inversion H; subst end.
        match goal with H : leaves _ _ _ _ _ |- _ => inversion H; subst end. rewrite pop_snoc.
        injection 1 as <-. apply goes_good; auto.
        { intros Hh. specialize (Bi Hh). now apply app_eq_nil in Bi. }
        rewrite T. intros r' q' L'. inversion L'; subst.
        match goal with H : writes _ Pass _ _ |- _ => inversion H; subst end.
        match goal with H : leaves (_ ++ _) _ _ _ _ |- _ => inversion H; subst end.
        match goal with H : _ ++ [_] = _ ++ [_] |- _ => apply app_inj_tail in H as [-> _] end.
        econstructor; [constructor|eassumption].
      * injection 1 as <-. apply goes_good; auto. rewrite T. intros r' q' L'. inversion L'; subst.
        match goal with H : writes _ _ _ _ |- _ => inversion H; subst end.
        match goal with H : leaves _ _ _ _ _ |- _ => inversion H; subst end. econstructor; [constructor|eassumption].
    + injection 1 as <-. apply goes_good; auto. rewrite T. intros r' q' L'. inversion L'; subst.
      match goal with H : writes _ _ _ _ |- _ => inversion H; subst end.
      rewrite report_hook.
      replace (if hooked w then hook_lines v else []) with (hook_lines v)
        by (destruct (hooked w); [reflexivity|now rewrite Bi]).
      constructor. assumption.
    + destruct (hooked w) eqn:Hh; injection 1 as <-.
      * apply goes_good; [assumption|intros K; rewrite Hh in K; discriminate|]. rewrite T. intros r' q' L'. inversion L'; subst.
        match goal with H : writes _ _ _ _ |- _ => inversion H; subst end.
        econstructor; [eassumption|]. constructor. assumption.
      * split; [reflexivity || exact A|]. split; [discriminate|]. intros j. destruct (C j) as (o1 & q1 & r1 & W1 & L1 & E1).
        exists o1, q1, r1. split; [assumption|]. split; [|exact E1]. cbn.
        inversion L1; subst; econstructor; eassumption.
    + injection 1 as <-. apply goes_good; auto. rewrite T. intros r' q' L'. inversion L'; subst.
      match goal with H : writes _ _ _ _ |- _ => inversion H; subst end.
      econstructor; [eassumption|]. constructor. assumption.
    + injection 1 as <-. apply goes_good; auto. rewrite T. intros r' q' L'. inversion L'; subst.
      match goal with H : writes _ _ _ _ |- _ => inversion H; subst end.
      * rewrite <- app_assoc. econstructor; [eassumption|]. econstructor; eassumption.
      * econstructor; [eassumption|]. constructor. assumption.
  - destruct todo as [|l rest].
    + injection 1 as <-. apply goes_good; auto. rewrite T. intros r' q' L'. inversion L'; subst. constructor; assumption.
    + injection 1 as <-. split; [reflexivity|]. split.
      * intros Hh j. cbn. destruct (Nat.eqb j i); [now apply Bi|now apply B].
      * intros j. destruct (C j) as (o1 & q1 & r1 & W1 & L1 & E1). cbn. unfold written. cbn.
        rewrite filter_app, map_app. cbn. destruct (Nat.eqb i j) eqn:Ej.
        -- apply Nat.eqb_eq in Ej; subst j. rewrite Nat.eqb_refl. rewrite T in L1. inversion L1; subst.
           do 3 eexists. split; [eassumption|]. split; [constructor; eassumption|].
           unfold written. now rewrite <- app_assoc.
        -- rewrite Nat.eqb_sym, Ej. exists o1, q1, r1. cbn. rewrite app_nil_r. auto.
  - destruct k as [|[b| |] k].
    + injection 1 as <-. apply goes_good; auto. rewrite T. intros r' q' L'. inversion L'; subst.
      match goal with H : leaves _ _ _ _ _ |- _ => inversion H; subst end. constructor.
    + injection 1 as <-. apply goes_good; auto. rewrite T. intros r' q' L'. inversion L'; subst.
      match goal with H : leaves _ _ _ _ _ |- _ => inversion H; subst end. constructor. assumption.
    + inversion L; subst. match goal with H : leaves _ _ _ _ _ |- _ => inversion H; subst end. rewrite pop_snoc.
      injection 1 as <-. apply goes_good; auto.
      { intros Hh. specialize (Bi Hh). now apply app_eq_nil in Bi. }
      rewrite T. intros r' q' L'. inversion L'; subst.
      match goal with H : leaves (_ ++ _) _ _ _ _ |- _ => inversion H; subst end.
      match goal with H : _ ++ [_] = _ ++ [_] |- _ => apply app_inj_tail in H as [-> _] end.
      constructor; assumption.
    + injection 1 as <-. apply goes_good; auto. rewrite T. intros r' q' L'. inversion L'; subst.
      match goal with H : leaves _ _ _ _ _ |- _ => inversion H; subst end. change r' with ([] ++ r'). econstructor; [constructor|eassumption].
  - discriminate.
Qed.

Lemma run_good codes s : forall w, good codes w -> good codes (run s w).
Proof.
  induction s as [|i s IH]; intros w G; [assumption|]. cbn. apply IH.
  destruct (step i w) eqn:E; [eapply step_good; eassumption|assumption].
Qed.


(** A thread that has not ended can go on. *)
Lemma step_progress codes i w : good codes w -> step i w = None -> exists p, where_ (threads w i) = Over p.
Proof.
  intros (A & B & C). unfold step. rewrite A.
  destruct (threads w i) as [v pt]. cbn. destruct pt as [[|m|x b|b|a b] k|[|l r] k|[|[b| |] k]|p];
    try (destruct k as [|[?| |] k]); try (destruct (pop v)); try (destruct (hooked w)); try discriminate; eauto.
Qed.
